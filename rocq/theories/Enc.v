(** What the arrays of a node mean: a node record encodes a list of (byte, child) pairs sorted by byte.
    Every node routine of NodeOps.v is characterised in terms of this list. *)
From Verif Require Export NodeOps.
From stdpp Require Export list.
Local Open Scope nat_scope.

Notation entries := (list (nat * addr)).

(** ** Lists *)
Lemma take_lookup_lt {A} (l : list A) n i : i < n -> take n l !! i = l !! i.
Proof. intros. by rewrite lookup_take. Qed.

Lemma lookup_mid1 {A} (l1 : list A) e l2 : ((l1 ++ [e]) ++ l2) !! length l1 = Some e.
Proof. rewrite <- app_assoc. cbn. by apply list_lookup_middle. Qed.

Fixpoint alook (es : entries) (b : byte) : option addr :=
  match es with [] => None | (x, a) :: es' => if Nat.eqb x b then Some a else alook es' b end.

Definition below (b : byte) (es : entries) : Prop := Forall (fun e => e.1 < b) es.
Definition above (b : byte) (es : entries) : Prop := Forall (fun e => b < e.1) es.
Fixpoint ssorted (es : entries) : Prop :=
  match es with [] => True | e :: es' => above e.1 es' /\ ssorted es' end.

Lemma ssorted_app l1 l2 : ssorted (l1 ++ l2) <-> ssorted l1 /\ ssorted l2 /\ (forall e1 e2, e1 ∈ l1 -> e2 ∈ l2 -> e1.1 < e2.1).
Proof.
  induction l1 as [|e l1 IH]; cbn.
  - split; [intros H; split_and!; [done|done|]|tauto]. intros e1 e2 Hin. by apply elem_of_nil in Hin.
  - rewrite IH. unfold above. rewrite Forall_app. setoid_rewrite elem_of_cons. rewrite !Forall_forall.
    split.
    + intros ((H1 & H2) & H3 & H4 & H5). split_and!; [done|done|done|].
      intros e1 e2 [->|Hin] H6; [by apply H2|by apply H5].
    + intros ((H1 & H2) & H3 & H4). split_and!; [done| |done|done|]; eauto.
Qed.

Lemma alook_app l1 l2 b : alook (l1 ++ l2) b = match alook l1 b with Some a => Some a | None => alook l2 b end.
Proof. induction l1 as [|[x a] l1 IH]; cbn; [done|]. by destruct (Nat.eqb x b). Qed.
Lemma alook_below b l : below b l -> alook l b = None.
Proof.
  induction l as [|[x a] l IH]; cbn; [done|]. intros [? ?]%Forall_cons. cbn in *.
  destruct (Nat.eqb_spec x b); [lia|auto].
Qed.
Lemma alook_above b l : above b l -> alook l b = None.
Proof.
  induction l as [|[x a] l IH]; cbn; [done|]. intros [? ?]%Forall_cons. cbn in *.
  destruct (Nat.eqb_spec x b); [lia|auto].
Qed.
Lemma alook_insert l1 l2 b c x : below b l1 -> above b l2 ->
  alook (l1 ++ (b, c) :: l2) x = if Nat.eqb b x then Some c else alook (l1 ++ l2) x.
Proof.
  intros Hb Ha. rewrite !alook_app. cbn. destruct (Nat.eqb_spec b x) as [<-|]; [|done].
  by rewrite alook_below.
Qed.
Lemma alook_None es b : alook es b = None <-> b ∉ es.*1.
Proof.
  induction es as [|[x a] es IH]; cbn; [split; [intros _; apply not_elem_of_nil|done]|].
  rewrite not_elem_of_cons. destruct (Nat.eqb_spec x b); [split; [done|intros [? _]; congruence]|].
  rewrite IH. naive_solver.
Qed.
Lemma alook_Some_elem es b a : alook es b = Some a -> (b, a) ∈ es.
Proof.
  induction es as [|[x a'] es IH]; cbn; [done|]. destruct (Nat.eqb_spec x b); [intros [= ->]; subst; left|].
  intros E. right. auto.
Qed.
Lemma elem_alook es b a : ssorted es -> (b, a) ∈ es -> alook es b = Some a.
Proof.
  induction es as [|[x a'] es IH]; cbn; [by intros _ ?%elem_of_nil|].
  intros [Ha Hs] [[= -> ->]|Hin]%elem_of_cons; [by rewrite Nat.eqb_refl|].
  unfold above in Ha. rewrite Forall_forall in Ha. specialize (Ha _ Hin). cbn in Ha.
  destruct (Nat.eqb_spec x b); [lia|auto].
Qed.
Lemma ssorted_middle l1 b c l2 : ssorted (l1 ++ (b, c) :: l2) -> below b l1 /\ above b l2 /\ ssorted (l1 ++ l2).
Proof.
  intros (H1 & H2 & H3)%ssorted_app. cbn in H2. destruct H2 as [H2 H4]. split; [|split; [done|]].
  - apply Forall_forall. intros e He. apply (H3 e (b, c)); [done|left].
  - apply ssorted_app. split_and!; [done..|]. intros. apply H3; [done|by right].
Qed.
Lemma ssorted_insert l1 b c l2 : ssorted (l1 ++ l2) -> below b l1 -> above b l2 -> ssorted (l1 ++ (b, c) :: l2).
Proof.
  intros (H1 & H2 & H3)%ssorted_app Hb Ha. apply ssorted_app. split_and!; [done|by split|].
  intros e1 e2 He1 [->|He2]%elem_of_cons; [|by apply H3]. cbn. unfold below in Hb. rewrite Forall_forall in Hb. by apply Hb.
Qed.
Lemma ssorted_replace l1 b c c' l2 : ssorted (l1 ++ (b, c) :: l2) -> ssorted (l1 ++ (b, c') :: l2).
Proof. intros Hs. destruct (ssorted_middle _ _ _ _ Hs) as (?&?&?). by apply ssorted_insert. Qed.
Lemma ssorted_split es b : ssorted es -> b ∉ es.*1 -> exists l1 l2, es = l1 ++ l2 /\ below b l1 /\ above b l2.
Proof.
  induction es as [|[x a] es IH]; cbn; [intros _ _; exists [], []; split_and!; constructor|].
  intros [Ha Hs] [Hne Hni]%not_elem_of_cons. destruct (decide (x < b)).
  - destruct (IH Hs Hni) as (l1 & l2 & -> & ? & ?). exists ((x, a) :: l1), l2. split_and!; [done|by constructor|done].
  - exists [], ((x, a) :: es). split_and!; [done|constructor|]. constructor; [cbn; lia|].
    eapply Forall_impl; [exact Ha|]. cbn. intros; lia.
Qed.
Lemma ssorted_NoDup es : ssorted es -> NoDup es.*1.
Proof.
  induction es as [|[x a] es IH]; cbn; [constructor|]. intros [Ha Hs]. constructor; [|auto].
  intros (e & -> & He)%elem_of_list_fmap. unfold above in Ha. rewrite Forall_forall in Ha. specialize (Ha _ He). cbn in Ha. lia.
Qed.
Lemma alook_split es b c : alook es b = Some c -> exists l1 l2, es = l1 ++ (b, c) :: l2.
Proof. intros H%alook_Some_elem. by apply elem_of_list_split in H. Qed.

(** ** sort.Search *)
Lemma search_loop_split fuel : forall i j f k, j - i <= fuel -> i <= k -> k <= j ->
  (forall x, i <= x < k -> f x = false) -> (forall x, k <= x < j -> f x = true) ->
  search_loop fuel i j f = k.
Proof.
  induction fuel as [|fuel IH]; intros i j f k Hf Hi Hj Hlo Hhi; cbn [search_loop]; [lia|]. cbv zeta.
  destruct (Nat.ltb_spec i j); [|lia].
  pose proof (Nat.div_mod (i + j) 2 ltac:(lia)). pose proof (Nat.mod_upper_bound (i + j) 2 ltac:(lia)).
  set (h := (i + j) / 2) in *. destruct (f h) eqn:Ef.
  - assert (k <= h). { destruct (decide (k <= h)); [done|]. rewrite Hlo in Ef; [done|lia]. }
    apply IH; [lia|lia|lia|intros; apply Hlo; lia|intros; apply Hhi; lia].
  - assert (h < k). { destruct (decide (h < k)); [done|]. rewrite Hhi in Ef; [done|lia]. }
    apply IH; [lia|lia|lia|intros; apply Hlo; lia|intros; apply Hhi; lia].
Qed.
Lemma sort_Search_split n f k : k <= n -> (forall x, x < k -> f x = false) -> (forall x, k <= x < n -> f x = true) ->
  sort_Search n f = k.
Proof. intros. apply search_loop_split; [lia..|intros; auto with lia|auto]. Qed.

(** ** The encoding *)
Definition sortedkind (k : kind) : bool := match k with K4 | K16 => true | _ => false end.

Record enc (n : inode) (es : entries) : Prop := {
  enc_sorted : ssorted es;
  enc_byte : Forall (fun e => e.1 < 256) es;
  enc_nch : n_nch n = u8 (length es);
  enc_klen : length (n_keys n) = keycap_of (n_kind n);
  enc_clen : length (n_children n) = cap_of (n_kind n);
  enc_cap : length es <= cap_of (n_kind n);
  enc_shape : match n_kind n with
              | K4 | K16 => take (length es) (n_keys n) = es.*1 /\ take (length es) (n_children n) = Some <$> es.*2
              | K48 =>
                  (forall b, b < 256 -> match alook es b with
                                   | None => n_keys n !! b = Some 0
                                   | Some a => exists i, n_keys n !! b = Some (S i) /\ n_children n !! i = Some (Some a)
                                   end) /\
                  (forall b b' i, n_keys n !! b = Some (S i) -> n_keys n !! b' = Some (S i) -> b = b') /\
                  (forall i a, n_children n !! i = Some (Some a) -> exists b, n_keys n !! b = Some (S i))
              | K256 => forall b, b < 256 -> n_children n !! b = Some (alook es b)
              end
}.

(** Pointers left in unused slots of the sorted arrays. *)
Definition stale (n : inode) : list addr :=
  if sortedkind (n_kind n) then omap id (drop (n_nch n) (n_children n)) else [].

(** The fields of a node that matter for the encoding. *)
Definition same_arr (n n' : inode) : Prop :=
  n_kind n' = n_kind n /\ n_nch n' = n_nch n /\ n_keys n' = n_keys n /\ n_children n' = n_children n.
Lemma enc_same n n' es : same_arr n n' -> enc n es -> enc n' es.
Proof. intros (H1 & H2 & H3 & H4) [Hso Hby Hnc Hkl Hcl Hca Hsh]. split; rewrite ?H1, ?H2, ?H3, ?H4; done. Qed.
Lemma stale_same n n' : same_arr n n' -> stale n' = stale n.
Proof. intros (H1 & H2 & H3 & H4). unfold stale. by rewrite H1, H2, H4. Qed.

Lemma enc_len256 n es : enc n es -> length es <= 256.
Proof. intros [Hso Hby Hnc Hkl Hcl Hca Hsh]. destruct (n_kind n); cbn in *; lia. Qed.
Lemma u8_small x : x < 256 -> u8 x = x.
Proof. intros. unfold u8. by apply Nat.mod_small. Qed.
Lemma u8_0 x : x <= 256 -> u8 x = 0 -> x = 0 \/ x = 256.
Proof.
  intros H1 H2. destruct (decide (x = 256)); [auto|]. rewrite u8_small in H2 by lia. auto.
Qed.
Lemma u8_incr_small x : x < 255 -> u8_incr x = x + 1.
Proof. intros. unfold u8_incr. apply u8_small. lia. Qed.
Lemma u8_decr_pos x : 0 < x -> x < 256 -> u8_decr x = x - 1.
Proof.
  intros. unfold u8_decr, u8. replace (x + 255) with (x - 1 + 1 * 256) by lia. rewrite Nat.mod_add by lia.
  apply Nat.mod_small. lia.
Qed.
Lemma u8_incr_u8 x : u8_incr (u8 x) = u8 (x + 1).
Proof. unfold u8_incr, u8. rewrite Nat.add_mod_idemp_l; lia. Qed.
Lemma u8_decr_u8 x : 0 < x -> u8_decr (u8 x) = u8 (x - 1).
Proof.
  intros. unfold u8_decr, u8. rewrite Nat.add_mod_idemp_l by lia.
  replace (x + 255) with (x - 1 + 1 * 256) by lia. by rewrite Nat.mod_add by lia.
Qed.

Lemma enc_nch_sorted n es : enc n es -> sortedkind (n_kind n) = true -> n_nch n = length es.
Proof. intros [Hso Hby Hnc Hkl Hcl Hca Hsh] Hk. rewrite Hnc. apply u8_small. destruct (n_kind n); cbn in *; try done; lia. Qed.

Lemma alook_ge256 n es b : enc n es -> 256 <= b -> alook es b = None.
Proof.
  intros [Hso Hby Hnc Hkl Hcl Hca Hsh] Hb. apply alook_None. intros (e & -> & He)%elem_of_list_fmap. rewrite Forall_forall in Hby.
  specialize (Hby _ He). lia.
Qed.

(** *** Sorted kinds: lookups *)
Lemma enc_key_lookup n es i e : enc n es -> sortedkind (n_kind n) = true -> es !! i = Some e ->
  n_keys n !! i = Some e.1 /\ n_children n !! i = Some (Some e.2).
Proof.
  intros He Hk Hi. assert (Hlt : i < length es) by (by eapply lookup_lt_Some).
  destruct He as [Hso Hby Hnc Hkl Hcl Hca Hsh]. assert (Hs : take (length es) (n_keys n) = es.*1 /\ take (length es) (n_children n) = Some <$> es.*2)
    by (destruct (n_kind n); done). destruct Hs as [Hs1 Hs2].
  rewrite <- (take_lookup_lt (n_keys n) (length es) i Hlt), <- (take_lookup_lt (n_children n) (length es) i Hlt).
  rewrite Hs1, Hs2, !list_lookup_fmap, Hi. done.
Qed.
Lemma enc_key_total n es i e : enc n es -> sortedkind (n_kind n) = true -> es !! i = Some e -> n_keys n !!! i = e.1.
Proof. intros He Hk Hi. apply list_lookup_total_correct. by eapply enc_key_lookup. Qed.

(** positions of the binary searches *)
Lemma search_gt n l1 l2 b : enc n (l1 ++ l2) -> sortedkind (n_kind n) = true ->
  Forall (fun e => e.1 <= b) l1 -> above b l2 ->
  sort_Search (n_nch n) (fun i => Nat.ltb b (n_keys n !!! i)) = length l1.
Proof.
  intros He Hk H1 H2. rewrite (enc_nch_sorted _ _ He Hk). apply sort_Search_split; rewrite ?app_length; [lia| |].
  - intros i Hi. destruct (lookup_lt_is_Some_2 l1 i Hi) as [e Hl].
    rewrite (enc_key_total n _ i e He Hk) by (by rewrite lookup_app_l).
    rewrite Forall_forall in H1. specialize (H1 e (elem_of_list_lookup_2 _ _ _ Hl)). apply Nat.ltb_ge. lia.
  - intros i [Hi1 Hi2]. destruct (lookup_lt_is_Some_2 l2 (i - length l1) ltac:(lia)) as [e Hl].
    rewrite (enc_key_total n _ i e He Hk) by (by rewrite lookup_app_r).
    unfold above in H2. rewrite Forall_forall in H2. specialize (H2 e (elem_of_list_lookup_2 _ _ _ Hl)). by apply Nat.ltb_lt.
Qed.
Lemma search_ge n l1 l2 b : enc n (l1 ++ l2) -> sortedkind (n_kind n) = true ->
  below b l1 -> Forall (fun e => b <= e.1) l2 ->
  sort_Search (n_nch n) (fun i => Nat.leb b (n_keys n !!! i)) = length l1.
Proof.
  intros He Hk H1 H2. rewrite (enc_nch_sorted _ _ He Hk). apply sort_Search_split; rewrite ?app_length; [lia| |].
  - intros i Hi. destruct (lookup_lt_is_Some_2 l1 i Hi) as [e Hl].
    rewrite (enc_key_total n _ i e He Hk) by (by rewrite lookup_app_l).
    unfold below in H1. rewrite Forall_forall in H1. specialize (H1 e (elem_of_list_lookup_2 _ _ _ Hl)). apply Nat.leb_gt. lia.
  - intros i [Hi1 Hi2]. destruct (lookup_lt_is_Some_2 l2 (i - length l1) ltac:(lia)) as [e Hl].
    rewrite (enc_key_total n _ i e He Hk) by (by rewrite lookup_app_r).
    rewrite Forall_forall in H2. specialize (H2 e (elem_of_list_lookup_2 _ _ _ Hl)). by apply Nat.leb_le.
Qed.

(** ** findChild *)
Lemma findChild_None n es b : enc n es -> b < 256 -> alook es b = None -> findChild n b = Ok (None, 0).
Proof.
  intros He Hb Hn. unfold findChild. destruct (n_kind n) eqn:Hk.
  1,2: destruct (ssorted_split es b (enc_sorted _ _ He)) as (l1 & l2 & -> & H1 & H2); [by apply alook_None|];
       (rewrite (search_gt n l1 l2 b); [|done|by rewrite Hk|eapply Forall_impl; [exact H1|cbn; intros; lia]|done]);
       (destruct l1 as [|e0 l1 _] using rev_ind; [done|]);
       rewrite app_length; cbn [length]; replace (length l1 + 1 - 1) with (length l1) by lia;
       (rewrite (enc_key_total n _ (length l1) e0 He) ; [|by rewrite Hk|apply lookup_mid1]);
       unfold below in H1; rewrite Forall_app in H1; destruct H1 as [_ H1]; rewrite Forall_singleton in H1;
       destruct (Nat.eqb_spec e0.1 b); [lia|]; by rewrite andb_false_r.
  - destruct He as [Hso Hby Hnc Hkl Hcl Hca Hsh]. rewrite Hk in *. destruct Hsh as (H1 & _ & _). specialize (H1 b Hb). rewrite Hn in H1.
    unfold getKeyAtIdx. rewrite Hk, H1. done.
  - destruct He as [Hso Hby Hnc Hkl Hcl Hca Hsh]. rewrite Hk in *. specialize (Hsh b Hb). rewrite Hn in Hsh.
    unfold getChild. rewrite Hk, Hsh. done.
Qed.

(** The slot of a present byte and what writing it does. *)
Lemma enc_set n l1 b c l2 : enc n (l1 ++ (b, c) :: l2) ->
  exists idx, findChild n b = Ok (Some c, idx) /\ idx < length (n_children n) /\
    n_children n !! idx = Some (Some c) /\
    (sortedkind (n_kind n) = true -> idx = length l1) /\
    (n_kind n = K48 -> n_keys n !! b = Some (S idx)) /\ (n_kind n = K256 -> idx = b) /\
    (forall c', setChildN n idx (Some c') = Ok (set_children n (<[idx := Some c']> (n_children n))) /\
           enc (set_children n (<[idx := Some c']> (n_children n))) (l1 ++ (b, c') :: l2) /\
           stale (set_children n (<[idx := Some c']> (n_children n))) = stale n).
Proof.
  intros He. pose proof (ssorted_middle _ _ _ _ (enc_sorted _ _ He)) as (H1 & H2 & _).
  assert (Hb : b < 256).
  { destruct He as [Hso Hby Hnc Hkl Hcl Hca Hsh]. rewrite Forall_app, Forall_cons in Hby. apply Hby. }
  assert (Hgoal : exists idx, findChild n b = Ok (Some c, idx) /\ n_children n !! idx = Some (Some c) /\
    (sortedkind (n_kind n) = true -> idx = length l1) /\ (n_kind n = K48 -> n_keys n !! b = Some (S idx)) /\ (n_kind n = K256 -> idx = b)).
  { unfold findChild. destruct (n_kind n) eqn:Hk.
    1,2: exists (length l1); replace (l1 ++ (b, c) :: l2) with ((l1 ++ [(b, c)]) ++ l2) in He by (by rewrite <- app_assoc);
         (rewrite (search_gt n (l1 ++ [(b, c)]) l2 b);
            [|done|by rewrite Hk|apply Forall_app; split; [eapply Forall_impl; [exact H1|cbn; intros; lia]|by apply Forall_singleton]|done]);
         rewrite app_length; cbn [length]; replace (length l1 + 1 - 1) with (length l1) by lia;
         (destruct (enc_key_lookup n _ (length l1) (b, c) He) as [Hk1 Hk2]; [by rewrite Hk|apply lookup_mid1|]);
         rewrite (list_lookup_total_correct _ _ _ Hk1); cbn [fst];
         rewrite Nat.eqb_refl; (destruct (Nat.leb_spec 1 (length l1 + 1)); [|lia]); cbn [andb];
         unfold getChild; rewrite Hk, Hk2; split_and!; [done|done|done|done|done].
    - destruct He as [Hso Hby Hnc Hkl Hcl Hca Hsh]. rewrite Hk in *. destruct Hsh as (Hs & _ & _). specialize (Hs b Hb).
      rewrite (alook_insert l1 l2 b c b H1 H2), Nat.eqb_refl in Hs. destruct Hs as (i & Hi1 & Hi2).
      exists i. unfold getKeyAtIdx. rewrite Hk, Hi1. cbn. rewrite Nat.sub_0_r. unfold getChild. rewrite Hk, Hi2. done.
    - destruct He as [Hso Hby Hnc Hkl Hcl Hca Hsh]. rewrite Hk in *. specialize (Hsh b Hb).
      rewrite (alook_insert l1 l2 b c b H1 H2), Nat.eqb_refl in Hsh.
      exists b. unfold getChild. rewrite Hk, Hsh. done. }
  destruct Hgoal as (idx & Hf & Hc & Hi & Hi48 & Hi256). exists idx.
  assert (Hlt : idx < length (n_children n)) by (by eapply lookup_lt_Some).
  split_and!; try done. intros c'. split; [|split].
  - unfold setChildN. by apply Nat.ltb_lt in Hlt as ->.
  - pose proof (ssorted_replace _ _ _ c' _ (enc_sorted _ _ He)) as Hss.
    pose proof He as He'. destruct He' as [Hso Hby Hnc Hkl Hcl Hca Hsh]. split; cbn -[length]; try done.
    + rewrite !Forall_app, !Forall_cons in *. done.
    + rewrite Hnc. rewrite !app_length. done.
    + by rewrite insert_length.
    + rewrite !app_length in *. done.
    + destruct (n_kind n) eqn:Hk.
      1,2: destruct Hsh as [Hs1 Hs2]; rewrite (Hi eq_refl) in *; rewrite !app_length in *; cbn [length] in *;
           (split; [rewrite Hs1, !fmap_app; done|]);
           rewrite take_insert_lt by lia; rewrite Hs2, !fmap_app; cbn;
           replace (length l1) with (length (Some <$> l1.*2) + 0) at 1 by (by rewrite !fmap_length);
           by rewrite insert_app_r.
      * destruct Hsh as (Hs1 & Hs2 & Hs3). split_and!; [|done|].
        -- intros x Hx. specialize (Hs1 x Hx). rewrite alook_insert in * by done.
           destruct (Nat.eqb_spec b x) as [Heq|Hne]; [subst x|].
           ++ exists idx. split; [by apply Hi48|]. by rewrite list_lookup_insert.
           ++ destruct (alook (l1 ++ l2) x) as [a|]; [|done]. destruct Hs1 as (i & Hi1 & Hi2). exists i. split; [done|].
              rewrite list_lookup_insert_ne; [done|]. intros <-. apply Hne. eapply Hs2; [by apply Hi48|done].
        -- intros i a Hia. destruct (decide (i = idx)) as [->|Hne]; [exists b; by apply Hi48|].
           rewrite list_lookup_insert_ne in Hia by done. by eapply Hs3.
      * intros x Hx. rewrite (Hi256 eq_refl) in *. specialize (Hsh x Hx). rewrite alook_insert in * by done.
        destruct (Nat.eqb_spec b x) as [Heq|Hne]; [subst x; by rewrite list_lookup_insert|].
        by rewrite list_lookup_insert_ne.
  - unfold stale. cbn. destruct (sortedkind (n_kind n)) eqn:Hk; [|done]. f_equal.
    rewrite (Hi eq_refl). rewrite drop_insert_gt; [done|]. rewrite (enc_nch_sorted _ _ He Hk), app_length. cbn. lia.
Qed.

