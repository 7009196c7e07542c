(** Proofs about whole downlink networks. *)
From Coq Require Import ZArith List Lia Bool Arith Permutation Sorted.
From Verif Require Import Base SatAddrModel ConstellationModel DeviceModel DeviceSpec DeviceProofs ChannelModel
  LinkModel LinkSpec LinkProofs LinkDevices DownSpec.
Import ListNotations.
Open Scope Z_scope.

Section Down.
Variable d : downlink.
Hypothesis Sane : v_sane d.

Let step := down_step (v_tx d) (v_rate d) (v_fits d).
Let dur := fun i => v_tx d (v_rate d i).
Let spread := down_spread (v_tx d) (v_rate d) (v_delay d) (v_loss d) (v_success d) (v_addr d) (v_ground d) (v_power d).
Let hears := down_hears (v_host d) (v_addr d).
Let inv := fun i => d_inv (dur i).

Lemma dur_pos : forall i u, 0 <= dur i u.
Proof. intros. apply (vs_tx d Sane). Qed.

Definition hop_at (t : Z) (i : nat) (u : Z) (g : nat) : hop :=
  if v_success d t u g i then Reach (v_delay d t g i) g (v_tx d (v_rate d i) u) else Lost.
Lemma spread_eq : forall t i u p, spread t i u p = Ok (map (hop_at t i u) (v_ground d)).
Proof.
  intros. unfold spread, down_spread, transmit2ground. cbn [gs_ground]. f_equal.
  induction (v_ground d) as [|g l IH]; [reflexivity|]. cbn [to_each map]. rewrite IH. f_equal.
  unfold gs_succeeds, hop_at. destruct (v_success d t u g i); reflexivity.
Qed.

Lemma hop_pos : forall t i u p hops after r lasts, spread t i u p = Ok hops -> In (Reach after r lasts) hops -> 0 <= after /\ 0 <= lasts.
Proof.
  intros t i u p hops after r lasts E Hin. rewrite spread_eq in E. injection E as <-. apply in_map_iff in Hin.
  destruct Hin as (g & H & _). unfold hop_at in H. destruct (v_success d t u g i); [|discriminate]. injection H as <- <- <-.
  split; [apply (vs_delay d Sane)|apply (vs_tx d Sane)].
Qed.

Lemma down_run_inv : forall ops y ns, v_run d ops = Some (Ok (y, ns)) -> l_inv step spread hears (v_a0 d) inv ns y.
Proof.
  intros ops y ns R. eapply (l_run_inv step dur spread hears (v_a0 d) inv); [apply dur_pos|apply hop_pos| | | |exact R].
  - intros. apply d_init.
  - intros i e tr [T _ _ _]. exact T.
  - intros i e tr o e' ev I S. apply (s_moves _ (dur_pos i) (v_fits d i)); assumption.
Qed.

Lemma down_obeys : forall ops y ns, v_run d ops = Some (Ok (y, ns)) -> obeyed ns = ordered ops.
Proof.
  intros ops y ns R. eapply (run_obeys step dur spread hears (v_a0 d) inv); [apply dur_pos|apply hop_pos| | | |exact R].
  - intros. apply d_init.
  - intros i e tr [T _ _ _]. exact T.
  - intros i e tr o e' ev I S. apply (s_moves _ (dur_pos i) (v_fits d i)); assumption.
Qed.

Lemma carried_frames : forall s, carried s (fates spread s) = frames_of d s.
Proof.
  intros s. unfold fates, hops_of. rewrite spread_eq. unfold frames_of. induction (v_ground d) as [|g l IH]; [reflexivity|].
  cbn [map carried flat_map filter]. fold (carried s (map (hop_at (sd_time s) (sd_from s) (sd_uid s)) l)). rewrite IH. unfold hop_at, reaches.
  destruct (v_success d _ _ _ _); reflexivity.
Qed.
Lemma missed_drops : forall s, missed s (fates spread s) = drops_of d s.
Proof.
  intros s. unfold fates, hops_of. rewrite spread_eq. unfold drops_of. induction (v_ground d) as [|g l IH]; [reflexivity|].
  cbn [map missed flat_map filter]. fold (missed s (map (hop_at (sd_time s) (sd_from s) (sd_uid s)) l)). rewrite IH. unfold hop_at, reaches.
  destruct (v_success d _ _ _ _); reflexivity.
Qed.
Lemma all_carried_frames : forall l, all_carried spread l = flat_map (frames_of d) l.
Proof. intros l. apply flat_map_ext. exact carried_frames. Qed.
Lemma all_missed_drops : forall l, all_missed spread l = flat_map (drops_of d) l.
Proof. intros l. apply flat_map_ext. exact missed_drops. Qed.

(** ** What a station hears *)
Definition for_r (r : nat) (f : flight) : bool := (fl_to f =? r)%nat.
Definition pend (r : nat) (q : list (Z * levent)) : list hearing := map (hearing_of d) (filter (for_r r) (arriving q)).

Lemma arriving_put : forall t e q, (forall f, e <> LFinish f) -> arriving (put t e q) = arriving q.
Proof.
  intros t e q N. induction q as [|x q IH]; cbn [put].
  - destruct e; try reflexivity. exfalso. eapply N; reflexivity.
  - destruct (fst x <=? t).
    + cbn [arriving flat_map]. fold (arriving (put t e q)) (arriving q). rewrite IH. reflexivity.
    + cbn [arriving flat_map snd]. destruct e; try reflexivity. exfalso. eapply N; reflexivity.
Qed.
Lemma arriving_put_all : forall l q, Forall (fun x => forall f, snd x <> LFinish f) l -> arriving (put_all l q) = arriving q.
Proof.
  unfold put_all. induction l as [|x l IH]; intros q F; [reflexivity|]. inversion F. subst. cbn [fold_left]. rewrite IH by assumption.
  apply arriving_put. assumption.
Qed.
Lemma arriving_fly : forall ev t i q q' n, fly dur spread (F := sat_address) t i ev q = Ok (q', n) -> arriving q' = arriving q.
Proof.
  induction ev as [|e ev IH]; intros t i q q' n H; cbn [fly] in H; [injection H as <- _; reflexivity|].
  destruct e as [| |a]; [apply IH in H; exact H|apply IH in H; exact H|].
  rewrite spread_eq in H. cbn [rbind] in H.
  destruct (fly dur spread t i ev _) as [[q1 n1]| | |] eqn:E; try discriminate. cbn [rbind] in H. injection H as <- _. apply IH in E.
  rewrite E, arriving_put by discriminate. apply arriving_put_all. unfold reach_events. apply Forall_forall. intros x Hx.
  apply in_flat_map in Hx. destruct Hx as (b & _ & Hx). destruct b; cbn in Hx; [contradiction|]. destruct Hx as [<-|[]]. discriminate.
Qed.

Lemma pend_put : forall r t f q, StronglySorted sooner q -> Forall on_its_time q -> t = fl_end f ->
  pend r (put t (LFinish f) q) = if for_r r f then hear_due (hearing_of d f) (pend r q) else pend r q.
Proof.
  intros r t f q S O ->. induction q as [|[t e] q IH].
  - unfold pend. cbn. destruct (for_r r f); reflexivity.
  - inversion S as [|? ? S1 S2]; subst. inversion O as [|? ? O1 O2]; subst. specialize (IH S1 O2). cbn [put fst].
    destruct (Z.leb_spec t (fl_end f)) as [Le|Gt].
    + unfold pend in *. cbn [arriving flat_map snd] in *. fold (arriving (put (fl_end f) (LFinish f) q)) (arriving q).
      rewrite !filter_app, !map_app, IH. destruct e as [i|g|g]; try reflexivity. cbn [filter map app].
      destruct (for_r r g); cbn [map app]; [|destruct (for_r r f); reflexivity].
      destruct (for_r r f); [|reflexivity]. cbn [hear_due hearing_of h_end]. cbn in O1. subst t.
      destruct (Z.leb_spec (fl_end g) (fl_end f)); [reflexivity|lia].
    + cbn [arriving flat_map snd]. unfold pend at 1. cbn [arriving flat_map snd]. cbn [app filter].
      fold (arriving q).
      change (match e with LFinish g => [g] | _ => [] end ++ arriving q) with (arriving ((t, e) :: q)).
      destruct (for_r r f); [cbn [map]; fold (pend r ((t, e) :: q))|fold (pend r ((t, e) :: q)); reflexivity].
      assert (All : Forall (fun x => fl_end f < h_end x) (pend r ((t, e) :: q))).
      { apply Forall_forall. intros x Hx. unfold pend in Hx. apply in_map_iff in Hx. destruct Hx as (g & <- & Hg). apply filter_In in Hg.
        destruct Hg as [Hg _]. unfold arriving in Hg. apply in_flat_map in Hg. destruct Hg as ([t' e'] & Hq & Hg). cbn in Hg.
        destruct e'; cbn in Hg; try contradiction. destruct Hg as [->|[]]. cbn [hearing_of h_end].
        rewrite Forall_forall in O. pose proof (O _ Hq) as Og. cbn in Og. rewrite <- Og.
        destruct Hq as [[= -> _]|Hq]; [exact Gt|]. rewrite Forall_forall in S2. specialize (S2 _ Hq). unfold sooner in S2. cbn in S2. lia. }
      destruct (pend r ((t, e) :: q)) as [|x l]; [reflexivity|]. cbn [hear_due hearing_of h_end]. inversion All. subst.
      destruct (Z.leb_spec (h_end x) (fl_end f)); [lia|reflexivity].
Qed.

Record ear (r : nat) (ns : list (knote sat_address)) (y : lstate) (s : ears) : Prop := mkEar {
  er_run : e_run (v_host d) (e_init (v_a0 d r)) (ear_ops d r ns) = Some s;
  er_now : e_now s <= l_now y;
  er_remote : e_remote s = l_focus y r;
  er_pend : e_pending s = pend r (l_queue y);
  er_up : e_up s = ear_up d r ns }.

Lemma e_run_app : forall h a b s, e_run h s (a ++ b) = match e_run h s a with Some s' => e_run h s' b | None => None end.
Proof. induction a as [|o a IH]; intros b s; cbn [e_run app]; [reflexivity|]. destruct (e_step h s o); auto. Qed.
Lemma ear_ops_app : forall r a b, ear_ops d r (a ++ b) = ear_ops d r a ++ ear_ops d r b.
Proof. intros. apply flat_map_app. Qed.
Lemma ear_up_app : forall r a b, ear_up d r (a ++ b) = ear_up d r a ++ ear_up d r b.
Proof. intros. apply flat_map_app. Qed.

(** A call on a device says nothing to a station. *)
Lemma device_silent : forall y t i o y' n, device_call step dur spread y t i o = Ok (y', n) ->
  (forall r, ear_ops d r n = [] /\ ear_up d r n = []) /\ arriving (l_queue y') = arriving (l_queue y) /\
  l_now y' = l_now y /\ l_focus y' = l_focus y.
Proof.
  intros y t i o y' n H. apply (device_call_ok step dur spread) in H. destruct H as (e & ev & q & n' & _ & Fl & -> & ->). cbn [l_queue l_now l_focus].
  split; [|split; [eapply arriving_fly; exact Fl|auto]]. intros r.
  assert (G : forall ev q q' n, fly dur spread (F := sat_address) t i ev q = Ok (q', n) -> ear_ops d r n = [] /\ ear_up d r n = []).
  { clear. induction ev as [|e ev IH]; intros q q' n H; cbn [fly] in H; [injection H as _ <-; auto|]. destruct e; eauto.
    rewrite spread_eq in H. cbn [rbind] in H. destruct (fly dur spread t i ev _) as [[q1 n1]| | |] eqn:E; try discriminate.
    cbn [rbind] in H. injection H as _ <-. apply IH in E. destruct E as [E1 E2]. rewrite ear_ops_app, ear_up_app, E1, E2, !app_nil_r.
    unfold lost_notes. induction (map _ _) as [|x l IHl]; [auto|]. cbn [flat_map]. rewrite ear_ops_app, ear_up_app.
    destruct IHl as [-> ->]. destruct x; auto. }
  exact (G _ _ _ _ Fl).
Qed.

Lemma ear_step : forall r ns y o y' n s, l_inv step spread hears (v_a0 d) inv ns y -> ear r ns y s ->
  l_step step dur spread hears y o = Some (Ok (y', n)) -> exists s', ear r (ns ++ n) y' s'.
Proof.
  intros r ns y o y' n s I [Ru Nw Re Pe Up] S.
  assert (Due : forall t, l_now y <= t -> (forall x, In x (l_queue y) -> t <= fst x) ->
     (e_now s <=? t) && forallb (fun c => t <=? h_end c) (e_pending s) = true).
  { intros t H1 H2. apply andb_true_iff. split; [apply Z.leb_le; lia|]. apply forallb_forall. intros x Hx. rewrite Pe in Hx.
    unfold pend in Hx. apply in_map_iff in Hx. destruct Hx as (g & <- & Hg). apply filter_In in Hg. destruct Hg as [Hg _].
    unfold arriving in Hg. apply in_flat_map in Hg. destruct Hg as ([t' e] & Hq & Hg). cbn in Hg. destruct e; cbn in Hg; try contradiction.
    destruct Hg as [->|[]]. pose proof (li_events _ _ _ _ _ _ _ I) as Ev. rewrite Forall_forall in Ev. specialize (Ev _ Hq). cbn in Ev.
    apply Z.leb_le. cbn [hearing_of h_end]. rewrite <- Ev. apply (H2 _ Hq). }
  assert (Rd : forall t, ready y t = true -> l_now y <= t /\ forall x, In x (l_queue y) -> t <= fst x).
  { intros t H. unfold ready in H. apply andb_true_iff in H. destruct H as [H1 H2]. apply Z.leb_le in H1. split; [exact H1|].
    rewrite forallb_forall in H2. intros x Hx. apply Z.leb_le. auto. }
  destruct o as [t i u p|t g a|]; cbn [l_step] in S.
  - destruct (ready y t) eqn:R; [|discriminate]. apply some_inj in S. apply device_silent in S. destruct S as (Q & A & N & F).
    cbn [l_queue l_now l_focus] in *. destruct (Q r) as [Q1 Q2]. destruct (Rd _ R) as [R1 _]. exists s. constructor.
    + rewrite ear_ops_app, Q1, app_nil_r. exact Ru.
    + lia.
    + congruence.
    + unfold pend. rewrite A. exact Pe.
    + rewrite ear_up_app, Q2, app_nil_r. exact Up.
  - destruct (ready y t) eqn:R; [|discriminate]. injection S as <- <-. destruct (Rd _ R) as [R1 R2].
    destruct (Nat.eqb_spec g r) as [->|Ne].
    + eexists. constructor.
      * rewrite ear_ops_app, e_run_app, Ru. cbn [ear_ops flat_map]. rewrite Nat.eqb_refl. cbn [app e_run e_step]. rewrite (Due t R1 R2).
        cbn [set_remote]. reflexivity.
      * cbn. lia.
      * cbn. rewrite at_same. reflexivity.
      * exact Pe.
      * rewrite ear_up_app. cbn [ear_up flat_map]. rewrite app_nil_r. exact Up.
    + exists s. apply Nat.eqb_neq in Ne. constructor.
      * rewrite ear_ops_app. cbn [ear_ops flat_map]. rewrite Ne, !app_nil_r. exact Ru.
      * cbn. lia.
      * cbn. rewrite at_other by (intros ->; rewrite Nat.eqb_refl in Ne; discriminate). exact Re.
      * exact Pe.
      * rewrite ear_up_app. cbn [ear_up flat_map]. rewrite app_nil_r. exact Up.
  - destruct (l_queue y) as [|[t e] q] eqn:Eq; [discriminate|]. apply some_inj in S.
    pose proof (li_future _ _ _ _ _ _ _ I) as Fu. rewrite Eq in Fu. pose proof (Forall_inv Fu) as Ft. cbn in Ft.
    pose proof (li_sorted _ _ _ _ _ _ _ I) as So. rewrite Eq in So. inversion So as [|? ? So1 So2]. subst.
    pose proof (li_events _ _ _ _ _ _ _ I) as Ev. rewrite Eq in Ev. inversion Ev as [|? ? Ev1 Ev2]. subst.
    assert (Ht : forall x, In x ((t, e) :: q) -> t <= fst x).
    { intros x [<-|Hx]; [cbn; lia|]. rewrite Forall_forall in So2. apply (So2 x Hx). }
    destruct e as [i|f|f].
    + apply device_silent in S. destruct S as (Q & A & N & F). cbn [l_queue l_now l_focus] in *. destruct (Q r) as [Q1 Q2]. exists s. constructor.
      * rewrite ear_ops_app, Q1, app_nil_r. exact Ru.
      * lia.
      * congruence.
      * rewrite Pe. unfold pend. rewrite A. reflexivity.
      * rewrite ear_up_app, Q2, app_nil_r. exact Up.
    + injection S as <- <-. cbn in Ev1. subst t. cbn [l_focus].
      assert (Up' : ear_up d r [KArrive (fl_arr f) f (hears (l_focus y (fl_to f)) (fl_src f))] = []) by reflexivity.
      destruct (Nat.eqb_spec (fl_to f) r) as [Er|Ne].
      * subst r. eexists. constructor.
        -- rewrite ear_ops_app, e_run_app, Ru. cbn [ear_ops flat_map]. rewrite Nat.eqb_refl. cbn [app e_run e_step]. rewrite (Due _ Ft Ht). reflexivity.
        -- destruct (sat_neqb _ _ _); destruct (hears _ _); cbn; lia.
        -- destruct (sat_neqb _ _ _); destruct (hears _ _); cbn; exact Re.
        -- unfold hears, down_hears. rewrite <- Re. destruct (sat_neqb _ _ _); cbn [negb e_pending l_queue].
           ++ rewrite Pe. reflexivity.
           ++ rewrite pend_put; [|exact So1|exact Ev2|reflexivity]. unfold for_r. rewrite Nat.eqb_refl, Pe. reflexivity.
        -- rewrite ear_up_app, Up', app_nil_r, <- Up. destruct (sat_neqb _ _ _); reflexivity.
      * apply Nat.eqb_neq in Ne. exists s. constructor.
        -- rewrite ear_ops_app. cbn [ear_ops flat_map]. rewrite Ne, !app_nil_r. exact Ru.
        -- destruct (hears _ _); cbn; lia.
        -- destruct (hears _ _); exact Re.
        -- destruct (hears _ _); cbn [l_queue]; [rewrite pend_put; [|exact So1|exact Ev2|reflexivity]; unfold for_r; rewrite Ne|]; exact Pe.
        -- rewrite ear_up_app, Up', app_nil_r. exact Up.
    + injection S as <- <-. cbn in Ev1. subst t. cbn [l_focus l_queue l_now]. unfold pend in Pe. cbn [arriving flat_map snd app filter] in Pe.
      unfold for_r at 1 in Pe. destruct (Nat.eqb_spec (fl_to f) r) as [Er|Ne].
      * subst r. eexists. constructor.
        -- rewrite ear_ops_app, e_run_app, Ru. cbn [ear_ops flat_map]. rewrite Nat.eqb_refl. cbn [app e_run e_step]. rewrite Pe. cbn [map]. reflexivity.
        -- cbn. lia.
        -- cbn. exact Re.
        -- reflexivity.
        -- cbn [e_up hearing_of h_end]. rewrite ear_up_app, Up. cbn [ear_up flat_map]. rewrite Nat.eqb_refl. reflexivity.
      * apply Nat.eqb_neq in Ne. exists s. constructor.
        -- rewrite ear_ops_app. cbn [ear_ops flat_map]. rewrite Ne, !app_nil_r. exact Ru.
        -- cbn. lia.
        -- exact Re.
        -- exact Pe.
        -- rewrite ear_up_app. cbn [ear_up flat_map]. rewrite Ne, !app_nil_r. exact Up.
Qed.

Lemma inv_next : forall ns y o y' n, l_inv step spread hears (v_a0 d) inv ns y -> l_step step dur spread hears y o = Some (Ok (y', n)) ->
  l_inv step spread hears (v_a0 d) inv (ns ++ n) y'.
Proof.
  intros ns y o y' n I S. eapply (l_step_inv step dur spread hears (v_a0 d) inv); [apply dur_pos|apply hop_pos| | | |exact I|exact S].
  - intros. apply d_init.
  - intros i e tr [T _ _ _]. exact T.
  - intros i e tr o' e' ev I' S'. apply (s_moves _ (dur_pos i) (v_fits d i)); assumption.
Qed.

Lemma down_ears : forall r ops y ns, v_run d ops = Some (Ok (y, ns)) -> exists s, ear r ns y s.
Proof.
  intros r ops y ns R.
  assert (G : forall ops m z s y ns, l_inv step spread hears (v_a0 d) inv m z -> ear r m z s ->
    l_run step dur spread hears z ops = Some (Ok (y, ns)) -> exists s', ear r (m ++ ns) y s').
  { clear ops y ns R. induction ops as [|o ops IH]; intros m z s y ns I E R; cbn [l_run] in R.
    - injection R as <- <-. rewrite app_nil_r. eauto.
    - destruct (l_step step dur spread hears z o) as [[[y1 n1]| | |]|] eqn:S; try discriminate.
      destruct (l_run step dur spread hears y1 ops) as [[[y2 n2]| | |]|] eqn:R2; try discriminate. injection R as <- <-.
      destruct (ear_step _ _ _ _ _ _ _ I E S) as [s1 E1]. rewrite app_assoc. eapply IH; [|exact E1|exact R2]. eapply inv_next; eauto. }
  apply (G ops [] (l_init (v_a0 d)) (e_init (v_a0 d r)) y ns).
  - apply (down_run_inv [] (l_init (v_a0 d)) []). reflexivity.
  - constructor; try reflexivity. 
  - exact R.
Qed.
End Down.
