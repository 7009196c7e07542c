(** In a slotted schedule the busy periods are the slots. *)
From Coq Require Import ZArith List Lia Bool Permutation Sorting.Sorted.
From Verif Require Import Base RxModel RxSpec RxProofs AlohaModel AlohaSpec AlohaProofs CrdsaModel CrdsaSpec CrdsaProofs CrdsaRun CrdsaSafe
  PeelSpec PeelProofs SlotSpec.
Import ListNotations.
Open Scope Z_scope.

Lemma separate_snoc : forall M (m : mac_rx M) ops o s s', rx_run m s ops = Some (Ok s') ->
  separate (st_pending s) ops -> separate (st_pending s') [o] -> separate (st_pending s) (ops ++ [o]).
Proof.
  induction ops as [|x ops IH]; intros o s s' R F G.
  - inversion R; subst. exact G.
  - cbn [rx_run app] in *. destruct x as [t u z p|]; cbn [rx_step separate] in *.
    + destruct (_ && _); [|discriminate]. destruct F as [F1 F2]. split; [exact F1|]. exact (IH _ _ _ R F2 G).
    + destruct (st_pending s) as [|r l]; [discriminate|].
      destruct (mac_finish m (st_mac s) r) as [[m' up]| | |]; cbn [rbind] in R; try discriminate.
      cbn [tl] in *. exact (IH _ _ _ R F G).
Qed.

Lemma finish_first_snoc : forall M (m : mac_rx M) ops o s s', rx_run m s ops = Some (Ok s') ->
  finish_first (st_pending s) ops -> finish_first (st_pending s') [o] -> finish_first (st_pending s) (ops ++ [o]).
Proof.
  induction ops as [|x ops IH]; intros o s s' R F G.
  - inversion R; subst. exact G.
  - cbn [rx_run app] in *. destruct x as [t u z p|]; cbn [rx_step finish_first] in *.
    + destruct (_ && _); [|discriminate]. destruct F as [F1 F2]. split; [exact F1|]. exact (IH _ _ _ R F2 G).
    + destruct (st_pending s) as [|r l]; [discriminate|].
      destruct (mac_finish m (st_mac s) r) as [[m' up]| | |]; cbn [rbind] in R; try discriminate.
      cbn [tl] in *. exact (IH _ _ _ R F G).
Qed.

Lemma slotted_prefix : forall slot a b, slotted slot (a ++ b) -> slotted slot a.
Proof.
  intros slot a b (S1 & S2 & S3). rewrite receptions_app in *. split; [|split].
  - intros x y Hx Hy. apply S1; apply in_or_app; auto.
  - intros x y Hx Hy. apply S2; apply in_or_app; auto.
  - rewrite map_app in S3. clear -S3. induction (map _ (receptions a)) as [|z l IH]; [constructor|].
    cbn [app] in S3. inversion S3; subst. constructor; [|auto]. intros H. apply H1. apply in_or_app; auto.
Qed.

Section Slots.
Variable slot : reception -> Z.
Context {M : Type}.
Variable m : mac_rx M.
Variable m0 : M.
Local Notation start := (rx_init m0).
Local Notation here k l := (in_slot slot k l).

Record slot_inv (ops : list rx_op) (s : rx_state M) : Prop := mkSlot {
  si_sep : separate [] ops;
  si_fin : finish_first [] ops;
  si_busy : st_pending s <> [] -> exists k, busy_frames [] [] ops = here k (receptions ops);
  si_pend : incl (st_pending s) (busy_frames [] [] ops);
  si_done : forall p, In p (busy_periods [] [] ops) ->
    exists k, p = here k (receptions ops) /\ p <> [] /\ Forall (fun r => rx_end r <= st_now s) p;
  si_all : forall r, In r (receptions ops) ->
    (exists p, In p (busy_periods [] [] ops) /\ In r p) \/ st_pending s <> [] /\ In r (busy_frames [] [] ops) }.

Lemma here_snoc : forall k l r, here k (l ++ [r]) = here k l ++ (if slot r =? k then [r] else []).
Proof. intros. unfold in_slot. rewrite filter_app. cbn [filter]. reflexivity. Qed.

Lemma slots_hold : forall ops s, rx_run m start ops = Some (Ok s) -> sane ops -> slotted slot ops -> slot_inv ops s.
Proof.
  intros ops s R. revert ops s R.
  apply (rx_run_ind M m start (fun ops s => sane ops -> slotted slot ops -> slot_inv ops s)).
  - intros _ _. constructor; cbn; try tauto; try congruence.
  - intros ops o s s' R IH E Sa Sl. pose proof (sane_app _ _ Sa) as Sa'. pose proof (slotted_prefix _ _ _ Sl) as Sl'.
    specialize (IH Sa' Sl'). destruct (base_inv_holds _ _ _ _ _ R Sa') as (Bp & Bs & Bn & Bst & Bl).
    destruct IH as [I1 I2 I3 I4 I5 I6].
    pose proof (busy_periods_snoc M m ops o start s [] R) as Ep. cbn [st_pending start rx_init] in Ep.
    pose proof (busy_frames_snoc M m ops o start s [] R) as Eb. cbn [st_pending start rx_init] in Eb.
    destruct o as [t u x p|]; cbn [rx_step] in E.
    + destruct ((st_now s <=? t) && forallb (fun r => t <=? rx_end r) (st_pending s)) eqn:G; [|discriminate].
      apply andb_true_iff in G. destruct G as [G1 G2]. apply Z.leb_le in G1. rewrite forallb_forall in G2.
      set (r := mkRx u t (t + x) p) in *. injection E as <-.
      assert (Rc : receptions (ops ++ [OStart t u x p]) = receptions ops ++ [r]) by (rewrite receptions_app; reflexivity).
      assert (Hr : In r (receptions (ops ++ [OStart t u x p]))) by (rewrite Rc; apply in_or_app; right; left; reflexivity).
      destruct Sl as (S1 & S2 & S3). rewrite Rc in S1, S2, S3.
      assert (Sr : rx_start r < rx_end r). { unfold sane in Sa. rewrite Forall_forall in Sa. exact (Sa r Hr). }
      rewrite Rc in Hr.
      assert (Old : forall y, In y (receptions ops) -> In y (receptions ops ++ [r])) by (intros; apply in_or_app; auto).
      (* an earlier frame never has a later slot *)
      assert (Le : forall y, In y (receptions ops) -> slot y <= slot r).
      { intros y Hy. destruct (Z_lt_le_dec (slot r) (slot y)) as [L|L]; [|exact L]. pose proof (S2 r y Hr (Old y Hy) L) as X.
        rewrite Forall_forall in Bst. specialize (Bst y Hy). cbn in X. cbn in Sr. lia. }
      assert (Pe : forall y, In y (st_pending s) -> slot y = slot r).
      { intros y Hy. pose proof (I4 y Hy) as Hb.
        assert (Hy' : In y (receptions ops)). { apply (Permutation_in _ (Permutation_sym Bp)). apply in_or_app; right; exact Hy. }
        specialize (Le y Hy'). destruct (Z_lt_le_dec (slot y) (slot r)) as [L|L]; [|lia].
        pose proof (S2 y r (Old y Hy') Hr L) as X. specialize (G2 y Hy). apply Z.leb_le in G2. cbn in X. lia. }
      assert (Un : forall y, In y (receptions ops) -> slot y = slot r -> rx_uid y <> u).
      { intros y Hy Es Eu. rewrite map_app in S3. cbn [map app] in S3. apply NoDup_remove_2 in S3. apply S3. rewrite app_nil_r.
        apply in_map_iff. exists y. split; [|exact Hy]. cbn. congruence. }
      assert (Past : forall y, In y (receptions ops) -> rx_end y <= st_now s -> slot y <> slot r).
      { intros y Hy Ey Es. pose proof (S1 r y Hr (Old y Hy) (eq_sym Es)) as X. cbn in X. lia. }
      assert (Pin : forall y, In y (st_pending s) -> In y (receptions ops)).
      { intros y Hy. apply (Permutation_in _ (Permutation_sym Bp)). apply in_or_app; right; exact Hy. }
      cbn [busy_frames] in Eb. fold r in Eb. rewrite app_nil_r in Ep.
      constructor; cbn [st_pending st_now]; rewrite ?Rc, ?Ep, ?Eb.
      * apply (separate_snoc M m ops _ start s R I1). cbn [separate]. split; [|exact Logic.I]. apply Forall_forall. intros y Hy.
        apply Un; auto.
      * apply (finish_first_snoc M m ops _ start s R I2). cbn [finish_first]. split; [|exact Logic.I]. apply Forall_forall. intros y Hy.
        exact (S1 r y Hr (Old y (Pin y Hy)) (eq_sym (Pe y Hy))).
      * intros _. exists (slot r). rewrite here_snoc, Z.eqb_refl. destruct (st_pending s) as [|y l] eqn:Es.
        -- replace (here (slot r) (receptions ops)) with (@nil reception); [reflexivity|]. symmetry.
           destruct (here (slot r) (receptions ops)) as [|z q] eqn:Eh; [reflexivity|]. exfalso.
           assert (Hz : In z (here (slot r) (receptions ops))) by (rewrite Eh; left; reflexivity).
           apply filter_In in Hz. destruct Hz as [Hz Ez]. apply Z.eqb_eq in Ez.
           destruct (I6 z Hz) as [(q' & Hq & Hz')|[X _]]; [|congruence].
           destruct (I5 q' Hq) as (k & -> & _ & F). rewrite Forall_forall in F. exact (Past z Hz (F z Hz') Ez).
        -- destruct I3 as [k Ek]; [discriminate|]. rewrite Ek.
           assert (Hy : In y (here k (receptions ops))) by (rewrite <- Ek; apply I4; left; reflexivity).
           apply filter_In in Hy. destruct Hy as [_ Ey]. apply Z.eqb_eq in Ey.
           rewrite (Pe y) in Ey by (left; reflexivity). subst k. reflexivity.
      * intros y Hy. apply schedule_in in Hy. destruct (st_pending s) as [|z l] eqn:Es.
        -- destruct Hy as [->|[]]. left; reflexivity.
        -- apply in_or_app. destruct Hy as [->|Hy]; [right; left; reflexivity|left; apply I4; exact Hy].
      * intros q Hq. destruct (I5 q Hq) as (k & Eq & Nq & F). exists k. rewrite here_snoc.
        destruct (Z.eqb_spec (slot r) k) as [Ek|Nk].
        -- exfalso. destruct q as [|z q]; [congruence|]. assert (Hz : In z (here k (receptions ops))) by (rewrite <- Eq; left; reflexivity).
           apply filter_In in Hz. destruct Hz as [Hz Ez]. apply Z.eqb_eq in Ez. inversion F; subst.
           apply (Past z Hz H1). congruence.
        -- rewrite app_nil_r. repeat split; auto. eapply Forall_impl; [|exact F]. cbn. intros; lia.
      * intros y Hy. apply in_app_iff in Hy. destruct Hy as [Hy|[<-|[]]].
        -- destruct (I6 y Hy) as [X|[X1 X2]]; [left; exact X|right]. split.
           ++ intros X. assert (In r []) by (rewrite <- X; apply schedule_in; auto). contradiction.
           ++ destruct (st_pending s); [congruence|]. apply in_or_app; auto.
        -- right. split.
           ++ intros X. assert (In r []) by (rewrite <- X; apply schedule_in; auto). contradiction.
           ++ destruct (st_pending s); [left; reflexivity|]. apply in_or_app; right; left; reflexivity.
    + destruct (st_pending s) as [|r l] eqn:Es; [discriminate|].
      destruct (mac_finish m (st_mac s) r) as [[m' up]| | |]; cbn [rbind] in E; try discriminate. injection E as <-.
      assert (Rc : receptions (ops ++ [OFinish]) = receptions ops) by (rewrite receptions_app; cbn; apply app_nil_r).
      cbn [busy_frames] in Eb. destruct I3 as [k Ek]; [discriminate|].
      assert (Nw : st_now s <= rx_end r) by (inversion Bn; assumption).
      constructor; cbn [st_pending st_now]; rewrite ?Rc, ?Ep, ?Eb.
      * apply (separate_snoc M m ops _ start s R I1). cbn [separate]. exact Logic.I.
      * apply (finish_first_snoc M m ops _ start s R I2). cbn [finish_first]. exact Logic.I.
      * intros _. eauto.
      * intros y Hy. apply I4. right; exact Hy.
      * intros q Hq. apply in_app_iff in Hq. destruct Hq as [Hq|Hq].
        -- destruct (I5 q Hq) as (k' & Eq & Nq & F). exists k'. repeat split; auto. eapply Forall_impl; [|exact F]. cbn. intros; lia.
        -- destruct l as [|z l]; [|destruct Hq]. destruct Hq as [<-|[]]. exists k. split; [exact Ek|].
           split; [intros X; specialize (I4 r (or_introl eq_refl)); rewrite X in I4; destruct I4|].
           apply Forall_forall. intros y Hy. assert (Hy' : In y (receptions ops)) by (rewrite Ek in Hy; apply filter_In in Hy; tauto).
           apply (Permutation_in _ Bp) in Hy'. apply in_app_iff in Hy'. destruct Hy' as [Hy'|[<-|[]]]; [|lia].
           apply in_map_iff in Hy'. destruct Hy' as (e & <- & He). rewrite Forall_forall in Bl. specialize (Bl e He). lia.
      * intros y Hy. destruct (I6 y Hy) as [(q & Hq & Hy')|[_ Hb]].
        -- left. exists q. split; [apply in_or_app; auto|exact Hy'].
        -- destruct l as [|z l].
           ++ left. eexists. split; [apply in_or_app; right; left; reflexivity|exact Hb].
           ++ right. split; [discriminate|exact Hb].
Qed.

Lemma in_slots_used : forall k l, In k (slots_used slot l) <-> exists r, In r l /\ slot r = k.
Proof.
  intros. unfold slots_used. rewrite nodup_In, in_map_iff. split; intros (r & A & B); exists r; auto.
Qed.

(** When the satellite is idle the collisions are the slots used. *)
Lemma idle_slots : forall ops s, rx_run m start ops = Some (Ok s) -> sane ops -> slotted slot ops -> st_pending s = [] ->
  incl (collisions_of ops) (slot_contents slot (receptions ops)) /\ incl (slot_contents slot (receptions ops)) (collisions_of ops).
Proof.
  intros ops s R Sa Sl Id. pose proof (slots_hold ops s R Sa Sl) as [I1 I2 I3 I4 I5 I6]. split; intros c Hc.
  - unfold collisions_of in Hc. apply in_map_iff in Hc. destruct Hc as (p & <- & Hp). destruct (I5 p Hp) as (k & Ek & Np & _).
    unfold slot_contents. apply in_map_iff. exists k. split; [rewrite <- Ek; reflexivity|]. apply in_slots_used.
    destruct p as [|r p]; [congruence|]. exists r. assert (Hr : In r (here k (receptions ops))) by (rewrite <- Ek; left; reflexivity).
    apply filter_In in Hr. destruct Hr as [Hr E]. apply Z.eqb_eq in E. auto.
  - unfold slot_contents in Hc. apply in_map_iff in Hc. destruct Hc as (k & <- & Hk). apply in_slots_used in Hk. destruct Hk as (r & Hr & Er).
    destruct (I6 r Hr) as [(p & Hp & Hrp)|[X _]]; [|congruence]. destruct (I5 p Hp) as (k' & Ek' & Np & _).
    assert (k' = k). { rewrite Ek' in Hrp. apply filter_In in Hrp. destruct Hrp as [_ E]. apply Z.eqb_eq in E. congruence. }
    subst k'. unfold collisions_of. apply in_map_iff. exists p. rewrite <- Ek'. auto.
Qed.

Lemma slots_framed : forall memory frame ops s, rx_run m start ops = Some (Ok s) -> sane ops -> slotted slot ops ->
  frame_slots memory frame slot (receptions ops) -> framed memory frame ops.
Proof.
  intros memory frame ops s R Sa Sl [F1 F2]. pose proof (slots_hold ops s R Sa Sl) as [I1 I2 I3 I4 I5 I6]. split; [|exact F2].
  intros p a b Hp Ha Hb. destruct (I5 p Hp) as (k & -> & _). apply filter_In in Ha. apply filter_In in Hb.
  destruct Ha as [Ha Ea]. destruct Hb as [Hb Eb]. apply Z.eqb_eq in Ea. apply Z.eqb_eq in Eb. apply F1; auto. congruence.
Qed.
End Slots.
