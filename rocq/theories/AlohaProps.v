(** C23-C27: the trivial MAC and Aloha. *)
From Coq Require Import ZArith List Lia Bool Permutation Sorting.Sorted.
From Verif Require Import Base RxModel RxSpec RxProofs AlohaModel AlohaSpec AlohaProofs.
Import ListNotations.
Open Scope Z_scope.

(** ** C23 *)

(** One transmission, at once; one completion, when it is over. *)
Theorem none_sends_once : forall now tx,
  map fst (none_send now tx) = [now] /\ map snd (none_send now tx) = [now + tx].
Proof. intros. split; reflexivity. Qed.
Print Assumptions none_sends_once.

(** Every frame whose end has come was passed up once, the others are still to finish; a schedule ns-3 can
    run never fails; and nothing prevents the pending ones from finishing. *)
Theorem none_passes_all : forall ops o, rx_run none_mac (rx_init tt) ops = Some o -> sane ops ->
  exists s, o = Ok s /\
    Permutation (receptions ops) (map fst (st_log s) ++ st_pending s) /\
    (forall a up, In (a, up) (st_log s) -> up = [rx_uid a] /\ rx_end a <= st_now s) /\
    (forall a, In a (st_pending s) -> st_now s <= rx_end a) /\
    exists s', rx_run none_mac s (repeat OFinish (length (st_pending s))) = Some (Ok s') /\
      Permutation (map rx_uid (receptions ops)) (concat (map snd (st_log s'))).
Proof.
  assert (T : forall ops o, rx_run none_mac (rx_init tt) ops = Some o -> exists s, o = Ok s).
  { intros ops. generalize (rx_init tt). induction ops as [|x ops IH]; intros s o R; cbn [rx_run] in R.
    - inversion R; eauto.
    - destruct x; cbn [rx_step] in R.
      + destruct (_ && _); [eauto|discriminate].
      + destruct (st_pending s); [discriminate|]. cbn in R. eauto. }
  assert (U : forall ops s, rx_run none_mac (rx_init tt) ops = Some (Ok s) ->
    Forall (fun e => snd e = [rx_uid (fst e)]) (st_log s)).
  { apply rx_run_ind; [constructor|]. intros ops o s s' R IH E. destruct o; cbn [rx_step] in E.
    - destruct (_ && _); inversion E; subst; auto.
    - destruct (st_pending s); inversion E; subst. cbn. apply Forall_app; auto. }
  assert (F : forall n (s : rx_state unit), length (st_pending s) = n ->
    exists s', rx_run none_mac s (repeat OFinish n) = Some (Ok s') /\
      st_log s' = st_log s ++ map (fun r => (r, [rx_uid r])) (st_pending s)).
  { induction n as [|n IH]; intros s L; cbn [repeat rx_run].
    - exists s. destruct (st_pending s); [|discriminate]. cbn. rewrite app_nil_r. auto.
    - cbn [rx_step]. destruct (st_pending s) as [|r l]; [discriminate|]. cbn [none_mac mac_finish rbind].
      injection L as L. edestruct (IH (mkSt (rx_end r) (st_mac s) l (st_log s ++ [(r, [rx_uid r])]))) as (s' & R & G); [exact L|].
      exists s'. split; [exact R|]. rewrite G. cbn [st_log st_pending map]. rewrite <- app_assoc. reflexivity. }
  intros ops o R Sa. destruct (T ops o R) as (s & ->). exists s. split; auto.
  destruct (base_inv_holds _ _ _ _ _ R Sa) as (P & So & Fn & Fs & Fl). pose proof (U ops s R) as Us.
  rewrite Forall_forall in Us, Fl, Fn. split; [exact P|]. split; [|split].
  - intros a up I. split; [exact (Us (a, up) I)|exact (Fl (a, up) I)].
  - auto.
  - destruct (F (length (st_pending s)) s eq_refl) as (s' & R' & G). exists s'. split; auto.
    rewrite G, P, !map_app, concat_app. rewrite map_map. apply Permutation_app.
    + clear -Us. induction (st_log s) as [|e l IH]; [auto|]. cbn [map concat].
      rewrite (Us e (or_introl eq_refl)). cbn [app]. constructor. apply IH. intros; apply Us; right; auto.
    + clear. induction (st_pending s); cbn; auto.
Qed.
Print Assumptions none_passes_all.

(** Three frames on top of each other. *)
Example none_passes_all_ex :
  match rx_run none_mac (rx_init tt) [OStart 0 1 10 1; OStart 2 2 10 1; OFinish; OStart 10 3 1 1; OFinish; OFinish] with
  | Some (Ok s) => map snd (st_log s) = [[1]; [3]; [2]] | _ => False end.
Proof. vm_compute. reflexivity. Qed.

(** ** C24 *)

Theorem slotted_aloha : forall slot now tx, 0 < slot < 2 ^ 63 -> exists t,
  aloha_send slot now tx = [(t, t + tx)] /\ next_boundary slot now t /\ t - now < slot /\
  ((exists k, now = k * slot) -> t = now).
Proof.
  intros slot now tx D. exists (now + time_to_next slot now). split; [reflexivity|].
  pose proof (next_boundary_to_next slot now D) as N. split; auto.
  split; [apply (next_boundary_wait slot); auto; lia|]. intros (k & ->).
  eapply next_boundary_unique; eauto. split; [eauto|]. split; [lia|]. auto.
Qed.
Print Assumptions slotted_aloha.

Theorem unslotted_aloha : forall slot now tx, slot <= 0 -> aloha_send slot now tx = [(now, now + tx)].
Proof.
  intros. unfold aloha_send, time_to_next. rewrite (proj2 (Z.ltb_ge 0 slot)) by lia.
  rewrite Z.add_0_r. reflexivity.
Qed.
Print Assumptions unslotted_aloha.

Example slotted_aloha_ex : aloha_send 12 25 7 = [(36, 43)] /\ aloha_send 12 24 7 = [(24, 31)] /\
  aloha_send (2 ^ 62) (2 ^ 61 + 1) 7 = [(2 ^ 62, 2 ^ 62 + 7)] /\ aloha_send 0 25 7 = [(25, 32)].
Proof. vm_compute. auto. Qed.

(** ** C25 *)

(** The claim, for any schedule ns-3 can run. *)
Definition receives_iff_alone (below : Z -> Z -> bool) (ops : list rx_op) : Prop :=
  forall g s a up, rx_run (aloha_mac below) (rx_init (aloha_init g)) ops = Some (Ok s) -> In (a, up) (st_log s) ->
    up = [rx_uid a] /\ (forall b, In b (receptions ops) -> b <> a -> ~ overlap a b) \/
    up = [] /\ (exists b, In b (receptions ops) /\ b <> a /\ overlap a b).

(** It fails when a reception starts at the instant another one ends and its event runs first: frame 3 is
    alone but inherits the collision of 1 and 2.  And, as its power is not added, frame 5 below, hit by
    frame 6, is passed up. *)
Theorem aloha_alone_refuted :
  ~ (forall ops, sane ops -> distinct ops -> Forall (fun r => 0 < rx_pow r) (receptions ops) ->
       receives_iff_alone no_capture ops).
Proof.
  intros H. set (ops := [OStart 0 1 10 1; OStart 5 2 10 1; OFinish; OStart 15 3 10 1; OFinish; OFinish]).
  assert (R : exists s, rx_run (aloha_mac no_capture) (rx_init (aloha_init 0)) ops = Some (Ok s) /\
    In (mkRx 3 15 25 1, []) (st_log s)).
  { eexists. split; [vm_compute; reflexivity|]. cbn. auto. }
  destruct R as (s & R & I). destruct (H ops) with (g := 0) (s := s) (a := mkRx 3 15 25 1) (up := @nil Z) as [[E _]|[_ (b & Ib & Nb & O)]]; auto.
  - repeat constructor; cbn; lia.
  - repeat constructor; cbn; intuition lia.
  - repeat constructor; cbn; lia.
  - discriminate E.
  - unfold overlap in O. cbn in Ib. destruct Ib as [<-|[<-|[<-|[]]]]; cbn in O; try lia. apply Nb. reflexivity.
Qed.
Print Assumptions aloha_alone_refuted.

Theorem aloha_collided_passed_refuted : exists ops s a b,
  rx_run (aloha_mac no_capture) (rx_init (aloha_init 0)) ops = Some (Ok s) /\ sane ops /\ distinct ops /\
  Forall (fun r => 0 < rx_pow r) (receptions ops) /\
  In (a, [rx_uid a]) (st_log s) /\ In b (receptions ops) /\ b <> a /\ overlap a b.
Proof.
  exists [OStart 0 4 10 1; OStart 10 5 10 5; OFinish; OStart 15 6 3 1; OFinish; OFinish].
  eexists _, (mkRx 5 10 20 5), (mkRx 6 15 18 1). split; [vm_compute; reflexivity|].
  split; [|split; [|split; [|split; [|split; [|split]]]]].
  - repeat constructor; cbn; lia.
  - repeat constructor; cbn; intuition lia.
  - repeat constructor; cbn; lia.
  - cbn. auto.
  - cbn. auto.
  - discriminate.
  - unfold overlap; cbn; lia.
Qed.
Print Assumptions aloha_collided_passed_refuted.

(** True when at equal times ends run before starts; missing: the other order, where it is false. *)
Theorem aloha_alone_partial : forall below ops,
  (forall p i, 0 < i -> below p i = true) -> sane ops -> distinct ops ->
  Forall (fun r => 0 < rx_pow r) (receptions ops) -> finish_first [] ops -> receives_iff_alone below ops.
Proof.
  intros below ops NC Sa D Po Ff g s a up R I.
  pose proof (base_inv_holds _ _ _ _ _ R Sa) as (P & _).
  assert (Ia : In a (receptions ops)).
  { apply (Permutation_in _ (Permutation_sym P)). apply in_or_app. left. apply in_map_iff. exists (a, up). auto. }
  destruct (busy_holds below g ops s R Sa (distinct_separate _ D) Ff) as (bp & _ & _ & _ & _ & _ & _ & J).
  rewrite Forall_forall in J. specialize (J (a, up) I). cbn [fst snd] in J.
  destruct J as (others & (N & O) & J). unfold sane in Sa. rewrite Forall_forall in Sa, Po.
  destruct others as [|b l].
  - left. destruct J as [[_ ->]|[[X _] _]]; [|congruence]. split; auto. intros b Ib Nb Ov.
    apply (O b). split; auto. split; auto. apply overlap_same_busy; auto.
  - right. destruct J as [[[X|X] _]|[_ ->]]; [discriminate| |].
    + rewrite NC in X; [discriminate|].
      assert (G : forall l', incl l' (receptions ops) -> l' <> [] -> 0 < total l').
      { induction l' as [|y l' IH]; intros Il Ne; [congruence|]. cbn [total fold_right]. fold (total l').
        pose proof (Po y (Il y (or_introl eq_refl))). destruct l' as [|z l'']; [cbn; lia|].
        assert (0 < total (z :: l'')); [|lia]. apply IH; [|discriminate]. intros w Hw. apply Il. right; auto. }
      apply G; [|discriminate]. intros c Hc. apply O in Hc. tauto.
    + split; auto. destruct (proj1 (O b) (or_introl eq_refl)) as (Ib & Nb & Sb).
      apply (same_busy_overlap _ a b); auto.
Qed.
Print Assumptions aloha_alone_partial.

(** A chain 1-2-3 of partial overlaps, then 4 back to back with it, its start after the end of 3. *)
Example aloha_alone_ex :
  let ops := [OStart 0 1 10 1; OStart 5 2 10 1; OFinish; OStart 12 3 8 1; OFinish; OFinish; OStart 20 4 5 1; OFinish] in
  finish_first [] ops /\
  match rx_run (aloha_mac no_capture) (rx_init (aloha_init 99)) ops with
  | Some (Ok s) => map snd (st_log s) = [[]; []; []; [4]] | _ => False end.
Proof. split; [repeat constructor; cbn; lia|vm_compute; reflexivity]. Qed.

(** ** C26 *)

(** In any schedule, ties included: idle once nothing is in progress, and otherwise the recorded end is the
    latest of those in progress. *)
Theorem aloha_idle : forall below g ops s, rx_run (aloha_mac below) (rx_init (aloha_init g)) ops = Some (Ok s) ->
  sane ops -> distinct ops ->
  (st_pending s = [] -> al_uid (st_mac s) = None /\ al_coll (st_mac s) = false) /\
  (st_pending s <> [] -> exists r, In r (st_pending s) /\ al_uid (st_mac s) = Some (rx_uid r) /\
     al_finish (st_mac s) = rx_end r /\ forall q, In q (st_pending s) -> rx_end q <= rx_end r).
Proof.
  intros below g ops s R Sa D. pose proof (owner_holds below g ops s R Sa (distinct_separate _ D)) as O.
  destruct (base_inv_holds _ _ _ _ _ R Sa) as (_ & So & _). unfold owner_inv in O.
  destruct (st_pending s) as [|y l'] eqn:El using rev_ind.
  - cbn in O. split; [auto|congruence].
  - clear IHl'. rewrite last_of_snoc in O. destruct O as [O1 O2]. split.
    + intros X. apply app_eq_nil in X. destruct X; discriminate.
    + intros _. exists y. split; [apply in_or_app; right; left; auto|]. split; auto. split; auto.
      intros q Hq. apply in_app_iff in Hq. destruct Hq as [Hq|[<-|[]]]; [|lia].
      clear -So Hq. induction l' as [|z l IH]; [contradiction|]. cbn in So. inversion So; subst.
      destruct Hq as [<-|Hq]; auto. rewrite Forall_forall in H2. apply (H2 y). apply in_or_app; right; left; auto.
Qed.
Print Assumptions aloha_idle.

(** What follows an idle moment is received as by a receiver that has just been switched on. *)
Theorem aloha_forgets : forall below g ops1 ops2 s1 s2, sane ops1 -> distinct ops1 ->
  rx_run (aloha_mac below) (rx_init (aloha_init g)) ops1 = Some (Ok s1) -> st_pending s1 = [] ->
  rx_run (aloha_mac below) s1 ops2 = Some (Ok s2) ->
  0 <= st_now s1 ->
  forall g', exists s', rx_run (aloha_mac below) (rx_init (aloha_init g')) ops2 = Some (Ok s') /\
    st_log s2 = st_log s1 ++ st_log s'.
Proof.
  intros below g ops1 ops2 s1 s2 Sa D R1 Em R2 T g'.
  destruct (aloha_idle below g ops1 s1 R1 Sa D) as [H _]. destruct (H Em) as [U C].
  destruct s1 as [n m pnd lg]. cbn [st_pending st_mac st_now st_log] in *. subst pnd.
  destruct (same_run below ops2 m (aloha_init g') n 0 lg [] [] s2) as (s' & new & R & G1 & G2); auto.
  - unfold same_mac. cbn. repeat split; auto; intros; congruence.
  - exists s'. split; auto. rewrite G1, G2. reflexivity.
Qed.
Print Assumptions aloha_forgets.

Example aloha_idle_ex :
  match rx_run (aloha_mac no_capture) (rx_init (aloha_init 0)) [OStart 0 1 10 1; OStart 5 2 3 1; OFinish; OFinish] with
  | Some (Ok s) => st_mac s = mkAloha None 10 false 0 /\ st_pending s = [] | _ => False end.
Proof. vm_compute. auto. Qed.

(** ** C27 *)

Definition captures (below : Z -> Z -> bool) (ops : list rx_op) : Prop :=
  forall g s a up, rx_run (aloha_mac below) (rx_init (aloha_init g)) ops = Some (Ok s) -> In (a, up) (st_log s) ->
    judged below (receptions ops) a up.

(** Ratio of at least 2 needed.  Frame 3, alone, is judged against the powers of 1 and 2. *)
Definition twice (p i : Z) : bool := p <? 2 * i.

Theorem aloha_capture_refuted :
  ~ (forall ops, sane ops -> distinct ops -> Forall (fun r => 0 < rx_pow r) (receptions ops) -> captures twice ops).
Proof.
  intros H. set (ops := [OStart 0 1 10 1; OStart 5 2 10 1; OFinish; OStart 15 3 10 1; OFinish; OFinish]).
  assert (R : exists s, rx_run (aloha_mac twice) (rx_init (aloha_init 0)) ops = Some (Ok s) /\
    In (mkRx 3 15 25 1, []) (st_log s)).
  { eexists. split; [vm_compute; reflexivity|]. cbn. auto. }
  destruct R as (s & R & I). destruct (H ops) with (g := 0) (s := s) (a := mkRx 3 15 25 1) (up := @nil Z) as (others & (N & O) & J); auto.
  - repeat constructor; cbn; lia.
  - repeat constructor; cbn; intuition lia.
  - repeat constructor; cbn; lia.
  - destruct others as [|b l].
    + destruct J as [[_ X]|[[X _] _]]; [discriminate|congruence].
    + destruct (proj1 (O b) (or_introl eq_refl)) as (Ib & Nb & S1 & S2). cbn in Ib.
      assert (L : rx_start b < 15).
      { destruct Ib as [<-|[<-|[<-|[]]]]; cbn; try lia. exfalso. apply Nb. reflexivity. }
      destruct (S2 15) as (r & Ir & Rr); [cbn; lia|]. cbn in Ir.
      destruct Ir as [<-|[<-|[<-|[]]]]; cbn in Rr; lia.
Qed.
Print Assumptions aloha_capture_refuted.

(** True when at equal times ends run before starts, for any threshold and any powers; missing: the other
    order, where it is false. *)
Theorem aloha_capture_partial : forall below ops, sane ops -> distinct ops -> finish_first [] ops ->
  captures below ops.
Proof.
  intros below ops Sa D Ff g s a up R I.
  destruct (busy_holds below g ops s R Sa (distinct_separate _ D) Ff) as (bp & _ & _ & _ & _ & _ & _ & J).
  rewrite Forall_forall in J. apply (J (a, up) I).
Qed.
Print Assumptions aloha_capture_partial.

(** 2 is strong enough against 1 + 3, 1 and 3 are not. *)
Example aloha_capture_ex :
  let ops := [OStart 0 1 10 1; OStart 5 2 10 4; OFinish; OStart 12 3 8 1; OFinish; OFinish] in
  finish_first [] ops /\
  match rx_run (aloha_mac twice) (rx_init (aloha_init 0)) ops with
  | Some (Ok s) => map snd (st_log s) = [[]; [2]; []] | _ => False end.
Proof. split; [repeat constructor; cbn; lia|vm_compute; reflexivity]. Qed.

(** ** C25 and C27 for every schedule, ties included *)

(** Nothing ever fails, and every end is judged by the stretch it is in. *)
Theorem aloha_any_schedule : forall below g ops o, rx_run (aloha_mac below) (rx_init (aloha_init g)) ops = Some o -> sane ops -> separate [] ops ->
  exists s, o = Ok s /\ map fst (st_log s) = map (fun e => fst (fst e)) (stretches [] None [] ops) /\
    Forall2 (judged_tied below) (stretches [] None [] ops) (map snd (st_log s)).
Proof.
  intros below g ops o R Sa Se.
  assert (T : exists s, o = Ok s).
  { clear Sa Se. revert R. generalize (rx_init (aloha_init g)). induction ops as [|x ops IH]; intros s R; cbn [rx_run] in R; [inversion R; eauto|].
    destruct x; cbn [rx_step] in R; [destruct (_ && _); [eauto|discriminate]|]. destruct (st_pending s); [discriminate|]. cbn in R. eauto. }
  destruct T as (s & ->). exists s. split; [reflexivity|].
  destruct (stretches_hold below ops (rx_init (aloha_init g)) s None []) as (new & L1 & L2 & L3); auto.
  - constructor.
  - constructor.
  - cbn. auto.
  - intros X. exfalso. apply X. reflexivity.
  - cbn in L1. subst new. split; assumption.
Qed.
Print Assumptions aloha_any_schedule.

(** Frames 1 and 2 collide, 3 starts when 2 ends and is judged by them; 4, that joins 3, too. *)
Example aloha_any_case :
  let ops := [OStart 0 1 10 1; OStart 5 2 10 4; OFinish; OStart 15 3 10 9; OFinish; OStart 20 4 3 6; OFinish; OFinish] in
  stretches [] None [] ops = [(mkRx 1 0 10 1, Some (mkRx 1 0 10 1), [mkRx 2 5 15 4]); (mkRx 2 5 15 4, Some (mkRx 1 0 10 1), [mkRx 2 5 15 4]);
    (mkRx 4 20 23 6, Some (mkRx 1 0 10 1), [mkRx 2 5 15 4; mkRx 4 20 23 6]); (mkRx 3 15 25 9, Some (mkRx 1 0 10 1), [mkRx 2 5 15 4; mkRx 4 20 23 6])] /\
  match rx_run (aloha_mac twice) (rx_init (aloha_init 0)) ops with
  | Some (Ok s) => map snd (st_log s) = [[]; [2]; []; [3]] | _ => False end.
Proof. vm_compute. auto. Qed.

(** Whatever collides or touches elsewhere, a frame that meets no other is passed up. *)
Theorem aloha_apart_received : forall below g ops s a up, rx_run (aloha_mac below) (rx_init (aloha_init g)) ops = Some (Ok s) ->
  sane ops -> separate [] ops -> apart_from_all (receptions ops) a -> In (a, up) (st_log s) -> up = [rx_uid a].
Proof.
  intros below g ops s a up R Sa Se Ap I.
  assert (H : sane ops -> separate [] ops -> apart_from_all (receptions ops) a ->
    (In a (st_pending s) -> st_pending s = [a] /\ al_coll (st_mac s) = false) /\ (forall up, In (a, up) (st_log s) -> up = [rx_uid a])).
  2:{ apply (proj2 (H Sa Se Ap)). exact I. }
  clear Sa Se Ap I up. revert ops s R.
  apply (rx_run_ind aloha (aloha_mac below) (rx_init (aloha_init g)) (fun ops s => sane ops -> separate [] ops -> apart_from_all (receptions ops) a ->
    (In a (st_pending s) -> st_pending s = [a] /\ al_coll (st_mac s) = false) /\ (forall up, In (a, up) (st_log s) -> up = [rx_uid a]))).
  - intros _ _ _. cbn. split; [intros []|intros up []].
  - intros ops o s s' R IH E Sa Se Ap. pose proof (sane_app _ _ Sa) as Sa'. destruct (separate_app _ _ _ _ _ _ R Se) as [Se' Se''].
    pose proof (base_inv_holds _ _ _ _ _ R Sa') as (P & So & Fn & Fs & Fl). pose proof (owner_holds below g _ _ R Sa' Se') as Ow.
    assert (Ap' : apart_from_all (receptions ops) a) by (intros b Hb; apply Ap; rewrite receptions_app; apply in_or_app; auto).
    destruct (IH Sa' Se' Ap') as [I1 I2]. destruct o as [t u x p|]; cbn [rx_step] in E.
    + destruct (_ && _) eqn:G; [|discriminate]. injection E as <-. cbn [st_pending st_mac st_log]. split; [|exact I2].
      apply andb_true_iff in G. destruct G as [G1 G2]. apply Z.leb_le in G1. rewrite forallb_forall in G2.
      set (r := mkRx u t (t + x) p) in *. rewrite receptions_app in Ap. cbn [receptions flat_map app] in Ap. fold r in Ap. cbn [separate] in Se''. destruct Se'' as [Sp _].
      rewrite Forall_forall in Sp, Fs, Fn.
      intros Ha. apply schedule_in in Ha. destruct Ha as [->|Ha].
      * assert (Ep : st_pending s = []).
        { destruct (st_pending s) as [|q l] eqn:Ep; [reflexivity|exfalso]. assert (Hq : In q (receptions ops)) by (apply (Permutation_in _ (Permutation_sym P)), in_or_app; right; left; auto).
          specialize (G2 q (or_introl eq_refl)). apply Z.leb_le in G2. specialize (Fs q Hq). cbn in Fs.
          assert (Nq : q <> r) by (intros ->; exact (Sp r (or_introl eq_refl) eq_refl)).
          destruct (Ap q) as [L|L]; [apply in_or_app; auto|exact Nq| |]; cbn in L.
          - lia.
          - unfold sane in Sa. rewrite receptions_app, Forall_app in Sa. destruct Sa as [_ Sa]. inversion Sa as [|? ? Sr _]; subst. cbn in Sr. lia. }
        rewrite Ep. split; [reflexivity|]. unfold owner_inv in Ow. rewrite Ep in Ow. destruct Ow as [O1 O2].
        change (mac_start (aloha_mac below) (st_mac s) r) with (aloha_start (st_mac s) r). unfold aloha_start. rewrite O1. cbn. exact O2.
      * exfalso. assert (Hr : In a (receptions ops)) by (apply (Permutation_in _ (Permutation_sym P)), in_or_app; auto).
        assert (Nr : r <> a) by (intros Er; apply (Sp a Ha); rewrite <- Er; reflexivity).
        destruct (Ap r) as [L|L]; [apply in_or_app; right; left; auto|exact Nr| |]; cbn in L.
        -- specialize (Fs a Hr). unfold sane in Sa. rewrite receptions_app, Forall_app in Sa. destruct Sa as [_ Sa]. inversion Sa as [|? ? Sr _]; subst. cbn in Sr. lia.
        -- specialize (G2 a Ha). apply Z.leb_le in G2. lia.
    + destruct (st_pending s) as [|q l] eqn:Ep; [discriminate|]. cbn [aloha_mac mac_finish aloha_finish rbind] in E. injection E as <-. cbn [st_pending st_mac st_log].
      split.
      * intros Ha. destruct (I1 (or_intror Ha)) as [X _]. injection X as -> ->. destruct Ha.
      * intros up Hu. apply in_app_iff in Hu. destruct Hu as [Hu|[Hu|[]]]; [apply I2; exact Hu|]. injection Hu as Eq Eu.
        destruct (I1 (or_introl Eq)) as [_ C]. rewrite C in Eu. cbn in Eu. rewrite <- Eu, Eq. reflexivity.
Qed.
Print Assumptions aloha_apart_received.
