(** Specification of DFS: what a callback that reads the leaf of every node it is given sees. *)
From Verif Require Export TreeOps.
Local Open Scope nat_scope.

(** The pair in the leaf of node a (getNodeLeaf), if it has one. *)
Definition shown_by {V} (h : heap V) (a : addr) : option (bytes * V) :=
  n ← h_nodes h !! a; la ← n_leaf n; l ← h_leaves h !! la; Some (getKey (l_key l), l_val l).
(** The pairs in the leaves of a list of nodes. *)
Definition shown {V} (h : heap V) (ns : list addr) : list (bytes * V) := omap (shown_by h) ns.
(** DFS on a tree with such a callback (tree.go:351-353, 404-415): one entry for each node visited, in order. *)
Definition treeDfs {V} (h : heap V) (t : rtree) : outcome (list (option (bytes * V))) :=
  let? ns := dfsNode (walk_fuel h) h (r_root t) in Ok (shown_by h <$> ns).
