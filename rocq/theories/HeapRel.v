(** Correspondences between two memories; the part of a memory that corresponds to something. *)
From Verif Require Export Acyclic Sim NodeRel ProgOwn.
From stdpp Require Import list.
Local Open Scope nat_scope.

Section HeapRel.
Context {V : Type} `{GoZero V}.
Notation corr := (bool -> addr -> addr -> Prop).
Implicit Types b : corr.

(** *** Correspondences without the transactions *)
Record hrel b (h h' : heap V) : Prop := mk_hrel {
  hr_bij : bij b;
  hr_N : forall x y, b true x y -> exists n n', h_nodes h !! x = Some n /\ h_nodes h' !! y = Some n' /\ nrel b n n';
  hr_L : forall x y, b false x y -> exists l l', h_leaves h !! x = Some l /\ h_leaves h' !! y = Some l' /\ lrel l l';
  hr_lt : forall k x y, b k x y -> x < h_next h /\ y < h_next h' }.
Lemma srel_hrel fo b h t h' t' : srel fo b h t h' t' -> hrel b h h'. Proof. by intros []. Qed.
Lemma hrel_srel fo b h t h' t' : hrel b h h' -> trel b t t' -> (fo = true -> h_next h' <= h_next h) -> srel fo b h t h' t'. Proof. by intros [] ? ?. Qed.
Lemma hrel_same b h h' h2 h2' : hrel b h h' ->
  (forall k x y, b k x y -> x < h_next h2 /\ sameC h h2 x) -> (forall k x y, b k x y -> y < h_next h2' /\ sameC h' h2' y) -> hrel b h2 h2'.
Proof.
  intros [A1 A2 A3 A4] HS HS'. split; [done| | |].
  - intros x y Hxy. destruct (A2 x y Hxy) as (n & n' & E & E' & Hr). destruct (HS _ _ _ Hxy) as [_ [S1 _]], (HS' _ _ _ Hxy) as [_ [S1' _]]. unfold sameN in *. rewrite E in S1. rewrite E' in S1'.
    destruct (h_nodes h2 !! x) as [m|]; [|done]. destruct (h_nodes h2' !! y) as [m'|]; [|done]. apply (inj Some) in S1, S1'. eexists _, _. split_and!; [done..|].
    eapply nrel_er1; [by symmetry|]. by eapply nrel_er2.
  - intros x y Hxy. destruct (A3 x y Hxy) as (n & n' & E & E' & Hr). destruct (HS _ _ _ Hxy) as [_ [_ S1]], (HS' _ _ _ Hxy) as [_ [_ S1']]. unfold sameL in *. rewrite E in S1. rewrite E' in S1'.
    destruct (h_leaves h2 !! x) as [m|]; [|done]. destruct (h_leaves h2' !! y) as [m'|]; [|done]. apply (inj Some) in S1, S1'. eexists _, _. split_and!; [done..|].
    eapply lrel_er1; [by symmetry|]. by eapply lrel_er2.
  - intros k x y Hxy. destruct (HS _ _ _ Hxy), (HS' _ _ _ Hxy). done.
Qed.
Lemma hrel_left b h h' h2 : hrel b h h' -> (forall k x y, b k x y -> x < h_next h2 /\ sameC h h2 x) -> hrel b h2 h'.
Proof. intros Hr HS. eapply hrel_same; [exact Hr|done|]. intros k x y Hxy. split; [by destruct (hr_lt _ _ _ Hr _ _ _ Hxy)|apply sameC_refl]. Qed.
(** A correspondence restricted to the cells of a closed set *)
Lemma hrel_restrict b h h' (D : addr -> Prop) : hrel b h h' -> (forall x n y, D x -> h_nodes h !! x = Some n -> points n y -> D y) ->
  hrel (fun k x y => b k x y /\ D x) h h'.
Proof.
  intros [A1 A2 A3 A4] HD. split.
  - intros k x y x' y' [E _] [E' _]. by eapply A1.
  - intros x y [Hxy Hx]. destruct (A2 x y Hxy) as (n & n' & E & E' & [B1 B2 B3 B4 B5 B6 B7 B8]). eexists _, _. split_and!; [done..|]. split; try done.
    + apply Forall2_same_length_lookup. apply Forall2_same_length_lookup in B7 as [L B7]. split; [done|]. intros i o o' Ho Ho'. specialize (B7 i o o' Ho Ho').
      destruct B7 as [u v Huv|]; constructor. split; [done|]. eapply HD; [exact Hx|exact E|]. left. by eapply elem_of_list_lookup_2.
    + assert (HL : forall u, n_leaf n = Some u -> D u) by (intros u Hu; eapply HD; [exact Hx|exact E|by right]).
      revert HL. destruct B8 as [u v Huv|]; intros HL; constructor. split; [done|by apply HL].
  - intros x y [Hxy Hx]. by apply A3.
  - intros k x y [Hxy Hx]. by eapply A4.
Qed.

(** ** The walks on the left end as well: the part of the memory that corresponds to something has a rank *)
Lemma nn_fun (P : nat -> nat -> Prop) n : (forall x y y', P x y -> P x y' -> y = y') -> ~ ~ exists (l : list nat) (g : nat -> nat), forall x, x < n -> (x ∈ l <-> exists y, P x y) /\ forall y, P x y -> g x = y.
Proof.
  intros Hf HN. assert (K : forall m, m <= n -> ~ ~ exists (l : list nat) (g : nat -> nat), forall x, x < m -> (x ∈ l <-> exists y, P x y) /\ forall y, P x y -> g x = y).
  2:{ by apply (K n). }
  induction m as [|m IH]; intros Hm HK; [apply HK; exists [], (fun x => x); lia|]. apply IH; [lia|]. intros (l & g & Hl).
  assert (~ ~ ((exists y, P m y) \/ ~ exists y, P m y)) as D by tauto. apply D. intros [[y Hp]|Hp]; apply HK.
  - exists (m :: l), (fun x => if decide (x = m) then y else g x). intros x Hx. rewrite elem_of_cons. destruct (decide (x = m)) as [->|Hne]; [split; [|intros; by eapply Hf]; split; eauto|].
    destruct (Hl x) as [K1 K2]; [lia|]. split; [|done]. rewrite <- K1. tauto.
  - exists (filter (fun x => x <> m) l), g. intros x Hx. rewrite elem_of_list_filter. destruct (decide (x = m)) as [->|Hne]; [split; [tauto|]; intros y Hy; destruct Hp; by exists y|].
    destruct (Hl x) as [K1 K2]; [lia|]. split; [|done]. rewrite <- K1. tauto.
Qed.
(** the part of h that corresponds to something *)
Definition cut (l : list addr) (h : heap V) : heap V := mkH (filter (fun xn => xn.1 ∈ l) (h_nodes h)) (h_leaves h) (h_next h) (h_nextch h) (h_closed h).
Definition idc (b : corr) : corr := fun k x y => x = y /\ exists z, b k x z.
Lemma oR_idc b k o o' : oR (b k) o o' -> oR (idc b k) o o.
Proof. intros [x y Hx|]; constructor. split; [done|]. by exists y. Qed.
Lemma nrel_idc b n n' : nrel b n n' -> nrel (idc b) n n.
Proof.
  intros [A1 A2 A3 A4 A5 A6 A7 A8]. split; try done; [|by eapply oR_idc].
  clear A6. induction A7; constructor; [by eapply oR_idc|done].
Qed.
Lemma cut_lookup l (h : heap V) x n : h_nodes (cut l h) !! x = Some n <-> h_nodes h !! x = Some n /\ x ∈ l.
Proof. apply map_filter_lookup_Some. Qed.
Lemma cut_idc b (h h' : heap V) l : hrel b h h' -> (forall x y, b true x y -> x ∈ l) -> hrel (idc b) (cut l h) h.
Proof.
  intros [A1 A2 A3 A4] Hl. split.
  - intros k x y x' y' [-> _] [-> _]. done.
  - intros x y [<- [z Hz]]. destruct (A2 x z Hz) as (n & n' & E1 & E2 & Hn). exists n, n. split; [by apply cut_lookup; eauto|]. split; [done|by eapply nrel_idc].
  - intros x y [<- [z Hz]]. destruct (A3 x z Hz) as (n & n' & E1 & E2 & Hn). exists n, n. split; [done|]. split; [done|]. by split.
  - intros k x y [<- [z Hz]]. destruct (A4 k x z Hz). done.
Qed.
Lemma cut_idc2 b (h h' : heap V) l : hrel b h h' -> (forall x y, b true x y -> x ∈ l) -> hrel (idc b) h (cut l h).
Proof.
  intros [A1 A2 A3 A4] Hl. split.
  - intros k x y x' y' [-> _] [-> _]. done.
  - intros x y [<- [z Hz]]. destruct (A2 x z Hz) as (n & n' & E1 & E2 & Hn). exists n, n. split; [done|]. split; [by apply cut_lookup; eauto|by eapply nrel_idc].
  - intros x y [<- [z Hz]]. destruct (A3 x z Hz) as (n & n' & E1 & E2 & Hn). exists n, n. split; [done|]. split; [done|]. by split.
  - intros k x y [<- [z Hz]]. destruct (A4 k x z Hz). done.
Qed.
Lemma cut_ranked b (h h' : heap V) l g : hrel b h h' -> ranked h' -> (forall x, x ∈ l -> exists y, b true x y) -> (forall x y, b true x y -> g x = y) -> ranked (cut l h).
Proof.
  intros [A1 A2 A3 A4] [rk Hr] Hl Hg. exists (fun x => rk (g x)). intros x n [E Hx]%cut_lookup. destruct (Hl x Hx) as [y Hy]. destruct (A2 x y Hy) as (n1 & n' & E1 & E2 & Hn).
  assert (n1 = n) as -> by congruence. destruct (Hr y n' E2) as [_ Hb]. split; [by apply (A4 _ _ _ Hy)|]. rewrite (Hg x y Hy). unfold below in *.
  pose proof (nr_children _ _ _ Hn) as HF. clear -HF Hb A4 Hg. induction HF as [|o o' cs cs' Ho HF IH]; [constructor|]. apply Forall_cons in Hb as [Hb1 Hb2]. constructor; [|by apply IH].
  destruct Ho as [u v Hu|]; [|done]. rewrite (Hg u v Hu). split; [by apply (A4 _ _ _ Hu)|apply Hb1].
Qed.
Lemma left_ends b (h h' : heap V) : hrel b h h' -> ranked h' -> ~ ~ exists h0, ranked h0 /\ hrel (idc b) h0 h /\ hrel (idc b) h h0 /\ h_next h0 = h_next h.
Proof.
  intros HR R' HN. apply (nn_fun (b true) (h_next h)). { intros x y y' A B. by apply (hr_bij _ _ _ HR _ _ _ _ _ A B). }
  intros (l & g & Hl). apply HN. assert (Hlt : forall x y, b true x y -> x < h_next h) by (intros x y Hx; apply (hr_lt _ _ _ HR _ _ _ Hx)).
  exists (cut (filter (fun x => x < h_next h) l) h). assert (Hl2 : forall x y, b true x y -> x ∈ filter (fun x => x < h_next h) l).
  { intros x y Hx. apply elem_of_list_filter. split; [by eapply Hlt|]. apply (Hl x); [by eapply Hlt|by exists y]. }
  split; [|split; [by eapply cut_idc|split; [by eapply cut_idc2|done]]].
  - eapply (cut_ranked b h h' _ g); [done|done| |].
    + intros x [Hx1 Hx2]%elem_of_list_filter. by apply (Hl x Hx1).
    + intros x y Hx. apply (Hl x); [by eapply Hlt|done].
Qed.

End HeapRel.
