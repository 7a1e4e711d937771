(** Views: the trees and transactions of a client, and which cells each of them may write.

    A view is a root together with the highest node id handed out below it and, for a transaction that may
    still write, its oldMaxNodeId.  The invariant WI says that a writable cell of one view is reachable
    from no other view. *)
From Verif Require Export Frame.
From stdpp Require Import list.
Local Open Scope nat_scope.

Section Views.
Context {V : Type} `{GoZero V}.

(** ** Cells reachable from an address *)
Definition points (n : inode) (x : addr) : Prop := Some x ∈ n_children n \/ n_leaf n = Some x.
Inductive reach (h : heap V) (a : addr) : addr -> Prop :=
| reach_refl : reach h a a
| reach_step y n x : reach h a y -> h_nodes h !! y = Some n -> points n x -> reach h a x.

Lemma inn_points (D : addr -> Prop) n : inn D n <-> forall x, points n x -> D x.
Proof.
  unfold inn, points. rewrite Forall_forall. split.
  - intros [H1 H2] x [Hx|Hx]; [by apply (H1 (Some x))|by rewrite Hx in H2].
  - intros Hp. split.
    + intros [x|] Hx; [|done]. cbn. apply Hp. by left.
    + destruct (n_leaf n) as [x|] eqn:E; [|done]. cbn. apply Hp. by right.
Qed.
(** agreement on everything reachable from a *)
Definition same (a : addr) (h h' : heap V) : Prop := agrees (reach h a) h h'.
Lemma same_intro a h h' : h_next h <= h_next h' ->
  (forall x, reach h a x -> h_nodes h' !! x = h_nodes h !! x /\ h_leaves h' !! x = h_leaves h !! x) -> same a h h'.
Proof.
  intros Hn Hc. split; [done|by intros; apply Hc..|]. intros x n Hx E. apply inn_points. intros y Hy. by eapply reach_step.
Qed.
Lemma same_reach a h h' x : same a h h' -> reach h' a x <-> reach h a x.
Proof.
  intros A. split; intros Hr.
  - induction Hr as [|y n x Hr IH E Hp]; [constructor|]. eapply reach_step; [exact IH| |exact Hp]. by rewrite <- (ag_nd _ _ _ A y IH).
  - induction Hr as [|y n x Hr IH E Hp]; [constructor|]. eapply reach_step; [exact IH| |exact Hp]. by rewrite (ag_nd _ _ _ A y Hr).
Qed.
Lemma same_refl a h : same a h h.
Proof. by apply same_intro. Qed.
Lemma same_trans a h1 h2 h3 : same a h1 h2 -> same a h2 h3 -> same a h1 h3.
Proof.
  intros A B. apply same_intro.
  - pose proof (ag_next _ _ _ A). pose proof (ag_next _ _ _ B). lia.
  - intros x Hx. pose proof (proj2 (same_reach _ _ _ x A) Hx) as Hx2.
    rewrite (ag_nd _ _ _ B x Hx2), (ag_lv _ _ _ B x Hx2). by rewrite (ag_nd _ _ _ A x Hx), (ag_lv _ _ _ A x Hx).
Qed.

(** ** The invariant *)
Inductive who := T (i : nat) | X (j : nat).
Global Instance who_dec : EqDecision who.
Proof. solve_decision. Defined.
Record view := mkV { v_root : addr; v_max : nat; v_own : option nat }.
Definition above (h : heap V) (o : nat) (x : addr) : Prop :=
  (exists n, h_nodes h !! x = Some n /\ o < n_id n) \/ (exists l, h_leaves h !! x = Some l /\ o < l_id l).
Definition bounded (h : heap V) (m : nat) (x : addr) : Prop :=
  x < h_next h /\ (forall n, h_nodes h !! x = Some n -> n_id n <= m) /\ (forall l, h_leaves h !! x = Some l -> l_id l <= m).
Record WI (h : heap V) (vw : who -> option view) : Prop := mk_WI {
  wi_fresh : forall x, h_next h <= x -> h_nodes h !! x = None /\ h_leaves h !! x = None;
  wi_bound : forall i v x, vw i = Some v -> reach h (v_root v) x -> bounded h (v_max v) x;
  wi_own : forall i v o, vw i = Some v -> v_own v = Some o -> o <= v_max v;
  wi_disj : forall i v o k u x, vw i = Some v -> v_own v = Some o -> vw k = Some u -> k <> i ->
     reach h (v_root v) x -> above h o x -> ~ reach h (v_root u) x }.

Lemma bounded_above h m x : bounded h m x -> ~ above h m x.
Proof. intros (_ & B1 & B2) [(n & E & Hl)|(l & E & Hl)]; [specialize (B1 _ E)|specialize (B2 _ E)]; lia. Qed.

(** Views may be dropped, lose their right to write, and hand their root on (Commit). *)
Lemma WI_map h vw vw' (src : who -> who) : WI h vw ->
  (forall i v', vw' i = Some v' -> exists v, vw (src i) = Some v /\ v_root v' = v_root v /\ v_max v' = v_max v /\
     forall o, v_own v' = Some o -> v_own v = Some o /\ forall k u', vw' k = Some u' -> src k = src i -> k = i) ->
  WI h vw'.
Proof.
  intros W Hm. split.
  - apply W.
  - intros i v' x Hi Hr. destruct (Hm _ _ Hi) as (v & Hv & E1 & E2 & _). rewrite E2. eapply wi_bound; eauto. by rewrite <- E1.
  - intros i v' o Hi Ho. destruct (Hm _ _ Hi) as (v & Hv & E1 & E2 & E3). destruct (E3 _ Ho) as [Ho' _]. rewrite E2. by eapply wi_own.
  - intros i v' o k u' x Hi Ho Hk Hne Hr Ha. destruct (Hm _ _ Hi) as (v & Hv & E1 & E2 & E3). destruct (E3 _ Ho) as [Ho' Hu].
    destruct (Hm _ _ Hk) as (u & Hu' & F1 & _). rewrite F1. rewrite E1 in Hr. eapply (wi_disj _ _ W (src i) v o (src k) u); eauto.
Qed.
Lemma WI_sub h vw vw' : WI h vw ->
  (forall i v', vw' i = Some v' -> exists v, vw i = Some v /\ v_root v' = v_root v /\ v_max v' = v_max v /\ (v_own v' = None \/ v_own v' = v_own v)) ->
  WI h vw'.
Proof.
  intros W Hm. apply (WI_map h vw vw' id W). intros i v' Hi. destruct (Hm _ _ Hi) as (v & Hv & E1 & E2 & E3). exists v. split_and!; [done..|].
  intros o Ho. split; [|by intros]. destruct E3; congruence.
Qed.

(** ** New roots *)
(** a copy of the root of view k; k itself must not write any more *)
Lemma WI_clone h vw k u n n1 i (ow' : option nat) :
  WI h vw -> vw k = Some u -> v_own u = None -> h_nodes h !! v_root u = Some n ->
  n_id n1 = n_id n -> n_children n1 = n_children n -> n_leaf n1 = n_leaf n -> vw i = None -> (ow' = None \/ ow' = Some (v_max u)) ->
  let h' := mkH (<[h_next h := n1]> (h_nodes h)) (h_leaves h) (S (h_next h)) (h_nextch h) (h_closed h) in
  WI h' (fun w => if decide (w = i) then Some (mkV (h_next h) (v_max u) ow') else vw w) /\
  (forall w v, vw w = Some v -> same (v_root v) h h').
Proof.
  intros W Hk Hown Hn N1 N2 N3 Hi How h'.
  assert (Hlt : forall w v x, vw w = Some v -> reach h (v_root v) x -> x < h_next h) by (intros w v x Hw Hr; by apply (wi_bound _ _ W w v x Hw Hr)).
  assert (Hsame : forall w v, vw w = Some v -> same (v_root v) h h').
  { intros w v Hw. apply same_intro; [cbn; lia|]. intros x Hx. pose proof (Hlt _ _ _ Hw Hx). cbn. split; [|done]. apply lookup_insert_ne. lia. }
  assert (Hnew : forall x, reach h' (h_next h) x -> x = h_next h \/ reach h (v_root u) x).
  { intros x Hr. induction Hr as [|y m x Hr IH E Hp]; [by left|]. right. cbn in E. destruct IH as [->|IH].
    - rewrite lookup_insert in E. injection E as <-. unfold points in Hp. rewrite N2, N3 in Hp. eapply reach_step; [constructor|exact Hn|exact Hp].
    - rewrite lookup_insert_ne in E; [by eapply reach_step|]. pose proof (Hlt _ _ _ Hk IH). lia. }
  assert (Hcell : forall x, x < h_next h -> h_nodes h' !! x = h_nodes h !! x). { intros x Hx. cbn. apply lookup_insert_ne. lia. }
  assert (Hb : forall m x, bounded h m x -> bounded h' m x).
  { intros m x (B1 & B2 & B3). split; [cbn; lia|]. split; [|done]. intros n' E. rewrite Hcell in E by done. eauto. }
  assert (Hbu : forall x, reach h' (h_next h) x -> bounded h' (v_max u) x).
  { intros x Hr. destruct (Hnew x Hr) as [->|Hr']; [|by apply Hb; eapply wi_bound].
    split; [cbn; lia|]. split.
    - intros n' E. cbn in E. rewrite lookup_insert in E. injection E as <-. rewrite N1. by apply (wi_bound _ _ W k u (v_root u) Hk (reach_refl _ _)).
    - intros l E. cbn in E. destruct (wi_fresh _ _ W (h_next h)) as [_ F]; [lia|]. congruence. }
  split; [|done]. split.
  - intros x Hx. cbn in Hx |- *. destruct (wi_fresh _ _ W x) as [F1 F2]; [lia|]. split; [|done]. rewrite lookup_insert_ne by lia. done.
  - intros w v x Hw Hr. destruct (decide (w = i)) as [->|Hne]; [injection Hw as <-; by apply Hbu|].
    apply Hb. eapply wi_bound; eauto. by apply (same_reach _ _ _ _ (Hsame _ _ ltac:(eassumption))).
  - intros w v o Hw Ho. destruct (decide (w = i)) as [->|Hne]; [|by eapply wi_own]. injection Hw as <-. cbn in Ho. destruct How as [->| ->]; [done|]. injection Ho as <-. cbn. lia.
  - intros w v o w' v' x Hw Ho Hw' Hne Hr Ha. destruct (decide (w = i)) as [->|Hwi].
    + injection Hw as <-. cbn in Ho, Hr. destruct How as [->| ->]; [done|]. injection Ho as <-. exfalso. eapply bounded_above; [by apply Hbu|done].
    + assert (Hr0 : reach h (v_root v) x) by (by apply (same_reach _ _ _ _ (Hsame _ _ ltac:(eassumption)))). pose proof (Hlt _ _ _ Hw Hr0) as Hxl.
      assert (Ha0 : above h o x). { destruct Ha as [(m & E & Hl)|Ha]; [left; exists m; by rewrite <- Hcell|by right]. }
      destruct (decide (w' = i)) as [->|Hwi'].
      * injection Hw' as <-. cbn. intros Hr'. destruct (Hnew x Hr') as [->|Hr'']; [lia|].
        eapply (wi_disj _ _ W w v o k u); eauto. intros ->. congruence.
      * intros Hr'. eapply (wi_disj _ _ W w v o w' v'); eauto. by apply (same_reach _ _ _ _ (Hsame _ _ ltac:(eassumption))).
Qed.

(** a new root over new cells only *)
Lemma WI_fresh h vw h' r m i :
  WI h vw -> vw i = None -> h_next h <= h_next h' ->
  (forall x, x < h_next h -> h_nodes h' !! x = h_nodes h !! x /\ h_leaves h' !! x = h_leaves h !! x) ->
  (forall x, h_next h' <= x -> h_nodes h' !! x = None /\ h_leaves h' !! x = None) ->
  (forall x, reach h' r x -> h_next h <= x /\ bounded h' m x) ->
  WI h' (fun w => if decide (w = i) then Some (mkV r m None) else vw w) /\ (forall w v, vw w = Some v -> same (v_root v) h h').
Proof.
  intros W Hi Hn Hold Hfr Hnew.
  assert (Hlt : forall w v x, vw w = Some v -> reach h (v_root v) x -> x < h_next h) by (intros w v x Hw Hr; by apply (wi_bound _ _ W w v x Hw Hr)).
  assert (Hsame : forall w v, vw w = Some v -> same (v_root v) h h').
  { intros w v Hw. apply same_intro; [done|]. intros x Hx. apply Hold. by eapply Hlt. }
  split; [|done]. split.
  - done.
  - intros w v x Hw Hr. destruct (decide (w = i)) as [->|Hne]; [injection Hw as <-; by apply Hnew|].
    assert (Hr0 : reach h (v_root v) x) by (by apply (same_reach _ _ _ _ (Hsame _ _ ltac:(eassumption)))).
    destruct (wi_bound _ _ W w v x Hw Hr0) as (B1 & B2 & B3). destruct (Hold x B1) as [E1 E2]. split; [lia|]. rewrite E1, E2. done.
  - intros w v o Hw Ho. destruct (decide (w = i)) as [->|Hne]; [by injection Hw as <-|by eapply wi_own].
  - intros w v o w' v' x Hw Ho Hw' Hne Hr Ha. destruct (decide (w = i)) as [->|Hwi]; [by injection Hw as <-|].
    assert (Hr0 : reach h (v_root v) x) by (by apply (same_reach _ _ _ _ (Hsame _ _ ltac:(eassumption)))). pose proof (Hlt _ _ _ Hw Hr0) as Hxl. destruct (Hold x Hxl) as [E1 E2].
    destruct (decide (w' = i)) as [->|Hwi'].
    + injection Hw' as <-. cbn. intros Hr'. apply Hnew in Hr'. lia.
    + intros Hr'. eapply (wi_disj _ _ W w v o w' v'); eauto; [|by apply (same_reach _ _ _ _ (Hsame _ _ ltac:(eassumption)))].
      unfold above in *. by rewrite E1, E2 in Ha.
Qed.

(** ** Updates inside a transaction *)
Definition xv (t : txn) : view := mkV (t_root t) (t_max t) (Some (t_oldmax t)).
Lemma WI_ok h vw i t : WI h vw -> vw i = Some (xv t) -> ok (reach h (t_root t)) (h_next h) (mkS h t).
Proof.
  intros W Hi. split; cbn.
  - lia.
  - apply W.
  - by apply (wi_own _ _ W i (xv t)).
  - split; [|left; constructor]. by apply (wi_bound _ _ W i _ _ Hi (reach_refl _ _)).
  - intros x n E [Hx [Hr|?]]; [|cbn in *; lia]. destruct (wi_bound _ _ W i _ x Hi Hr) as (B1 & B2 & B3).
    assert (K : forall y, points n y -> Own.In (reach h (t_root t)) (h_next h) (mkS h t) y).
    { intros y Hy. assert (reach h (t_root t) y) by by eapply reach_step. split; [|by left]. by apply (wi_bound _ _ W i _ y Hi). }
    split; [by apply B2| |].
    + intros [y|] Hy; [|done]. apply K. by left.
    + destruct (n_leaf n) as [y|] eqn:El; [|done]. apply K. by right.
  - intros x l E [Hx [Hr|?]]; [|cbn in *; lia]. by apply (wi_bound _ _ W i _ x Hi Hr).
Qed.
Lemma ok_reach D0 n0 (s : st V) x : ok D0 n0 s -> reach (s_h s) (t_root (s_t s)) x -> Own.In D0 n0 s x.
Proof.
  intros Hok Hr. induction Hr as [|y n x Hr IH E Hp]; [by apply ok_root|].
  destruct (ok_node _ _ _ Hok y n E IH) as [_ P1 P2]. destruct Hp as [Hp|Hp]; [by apply (P1 (Some x))|by rewrite Hp in P2].
Qed.
Lemma WI_update h vw i t s' : WI h vw -> vw i = Some (xv t) ->
  ok (reach h (t_root t)) (h_next h) s' -> ext (reach h (t_root t)) (h_next h) (mkS h t) s' ->
  WI (s_h s') (fun w => if decide (w = i) then Some (xv (s_t s')) else vw w) /\
  (forall w v, w <> i -> vw w = Some v -> same (v_root v) h (s_h s')).
Proof.
  intros W Hi Hok E. set (D0 := reach h (t_root t)) in *. set (n0 := h_next h) in *.
  pose proof (ext_next _ _ _ _ E) as En. pose proof (ext_om _ _ _ _ E) as Eo. pose proof (ext_mx _ _ _ _ E) as Em. cbn in En, Eo, Em.
  assert (Hlt : forall w v x, vw w = Some v -> reach h (v_root v) x -> x < n0) by (intros w v x Hw Hr; by apply (wi_bound _ _ W w v x Hw Hr)).
  (* what changes is owned by i *)
  assert (Hch : forall x, x < n0 -> (h_nodes (s_h s') !! x = h_nodes h !! x /\ h_leaves (s_h s') !! x = h_leaves h !! x) \/ (reach h (t_root t) x /\ above h (t_oldmax t) x)).
  { intros x Hx. destruct (ext_nd _ _ _ _ E x Hx) as [E1|((Hin & n & Hn & Hid) & _)].
    - destruct (ext_lv _ _ _ _ E x Hx) as [E2|((Hin & l & Hl & Hid) & _)]; [by left|]. right. split; [|right; by exists l].
      destruct Hin as [? [?|?]]; [done|cbn in *; lia].
    - right. split; [|left; by exists n]. destruct Hin as [? [?|?]]; [done|cbn in *; lia]. }
  assert (Hsame : forall w v, w <> i -> vw w = Some v -> same (v_root v) h (s_h s')).
  { intros w v Hne Hw. apply same_intro; [done|]. intros x Hx. destruct (Hch x) as [?|[Hr Ha]]; [by eapply Hlt|done|].
    exfalso. by eapply (wi_disj _ _ W i (xv t) (t_oldmax t) w v x). }
  assert (Hin : forall x, reach (s_h s') (t_root (s_t s')) x -> reach h (t_root t) x \/ n0 <= x).
  { intros x Hr. by destruct (ok_reach _ _ _ _ Hok Hr). }
  split; [|done]. split.
  - apply Hok.
  - intros w v x Hw Hr. destruct (decide (w = i)) as [->|Hne].
    + injection Hw as <-. cbn in Hr |- *. pose proof (ok_reach _ _ _ _ Hok Hr) as HI. split; [apply HI|]. split.
      * intros n En'. by apply (ok_node _ _ _ Hok x n).
      * intros l El. by apply (ok_lf _ _ _ Hok x l).
    + pose proof (Hsame _ _ Hne Hw) as A. apply (same_reach _ _ _ _ A) in Hr. destruct (wi_bound _ _ W w v x Hw Hr) as (B1 & B2 & B3).
      split; [lia|]. by rewrite (ag_nd _ _ _ A x Hr), (ag_lv _ _ _ A x Hr).
  - intros w v o Hw Ho. destruct (decide (w = i)) as [->|Hne]; [|by eapply wi_own]. injection Hw as <-. injection Ho as <-. apply Hok.
  - intros w v o w' v' x Hw Ho Hw' Hne Hr Ha. destruct (decide (w = i)) as [->|Hwi].
    + injection Hw as <-. injection Ho as <-. cbn in Hr. rewrite Eo in Ha. destruct (decide (w' = i)) as [->|Hwi']; [done|].
      pose proof (Hsame _ _ Hwi' Hw') as A. intros Hr'. apply (same_reach _ _ _ _ A) in Hr'. pose proof (Hlt _ _ _ Hw' Hr').
      destruct (Hin x Hr) as [Hr0|?]; [|lia]. eapply (wi_disj _ _ W i (xv t) (t_oldmax t) w' v' x); eauto.
      unfold above in *. by rewrite (ag_nd _ _ _ A x Hr'), (ag_lv _ _ _ A x Hr') in Ha.
    + pose proof (Hsame _ _ Hwi Hw) as A. apply (same_reach _ _ _ _ A) in Hr. pose proof (Hlt _ _ _ Hw Hr).
      assert (Ha0 : above h o x). { unfold above in *. by rewrite (ag_nd _ _ _ A x Hr), (ag_lv _ _ _ A x Hr) in Ha. }
      destruct (decide (w' = i)) as [->|Hwi'].
      * injection Hw' as <-. cbn. intros Hr'. destruct (Hin x Hr') as [Hr0|?]; [|lia]. by eapply (wi_disj _ _ W w v o i (xv t) x).
      * pose proof (Hsame _ _ Hwi' Hw') as A'. intros Hr'. apply (same_reach _ _ _ _ A') in Hr'. by eapply (wi_disj _ _ W w v o w' v' x).
Qed.
End Views.
