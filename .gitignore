*.vo
*.vok
*.vos
*.glob
*.aux
.*.aux
.Makefile.d
.lia.cache
Makefile
Makefile.conf
