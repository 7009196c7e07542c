(** Waiting times. *)
From Coq Require Import ZArith List Lia Bool Arith Permutation Sorted.
From Verif Require Import Base SatAddrModel DeviceModel DeviceSpec DeviceProofs ChannelModel LinkModel LinkSpec LinkProofs LinkDevices DelaySpec.
Import ListNotations.
Open Scope Z_scope.

Section Waits.
Variable dur : Z -> Z.
Variable T : Z.
Variable n : nat.
Hypothesis dur_pos : forall u, 0 <= dur u.
Hypothesis dur_max : forall u, dur u <= T.

Definition waits (a b : Z * Z) : Prop := snd a = snd b /\ fst a <= fst b <= fst a + Z.of_nat n * T.

Lemma busy_max : forall q, busy_time dur q <= Z.of_nat (List.length q) * T.
Proof.
  induction q as [|u q IH]; [cbn; lia|]. change (busy_time dur (u :: q)) with (dur u + busy_time dur q). pose proof (dur_max u). cbn [List.length]. lia.
Qed.

Lemma waits_step : forall d tr o ev d', t_inv dur d tr -> moves dur d o ev d' -> (forall t u p, In (SAccept t u p) ev -> (List.length (s_queue d) < n)%nat) ->
  Forall2 waits (requests tr) (in_turn dur 0 (requests tr)) -> Forall2 waits (requests (tr ++ ev)) (in_turn dur 0 (requests (tr ++ ev))).
Proof.
  intros d tr o ev d' [Nw Sh Bg Ps Od] M Room W. rewrite requests_app.
  assert (K : forall t u, (List.length (s_queue d) < n)%nat -> on_time d t = true -> Forall2 waits (requests tr ++ [(t, u)]) (in_turn dur 0 (requests tr ++ [(t, u)]))).
  { intros t u L Ot. rewrite in_turn_app. apply Forall2_app; [exact W|]. cbn [in_turn]. constructor; [|constructor]. split; [reflexivity|]. cbn [fst].
    unfold on_time in Ot. apply andb_prop in Ot. destruct Ot as (Ot & _). apply Z.leb_le in Ot. pose proof (dur_pos 0). pose proof (dur_max 0).
    split; [lia|]. destruct Sh as [(_ & _ & _ & E & _)|(c & l & _ & _ & _ & St & _ & E)]; [nia|]. rewrite E. unfold plan_end.
    assert (Ce : c_end c <= t + T). { rewrite St in Bg. apply Forall_app in Bg. destruct Bg as (_ & Bg). inversion Bg as [|? ? B _]. cbn in B. pose proof (dur_max (c_uid c)). lia. }
    pose proof (busy_max (s_queue d)). nia. }
  destruct M; cbn [requests flat_map app] in *; rewrite ?app_nil_r; try exact W.
  - apply K; [eapply Room; left; reflexivity|assumption].
  - apply K; [eapply Room; left; reflexivity|assumption].
Qed.
End Waits.

Lemma pick : forall (A B C : Type) (R : A * C -> B * C -> Prop) l m, (forall a b, R a b -> snd a = snd b) -> Forall2 R l m -> NoDup (map snd l) ->
  forall a b c, In (a, c) l -> In (b, c) m -> R (a, c) (b, c).
Proof.
  intros A B C R l m S F. assert (E : map snd m = map snd l) by (induction F as [|x y l m H F IH]; [reflexivity|]; cbn; rewrite IH, (S x y H); reflexivity).
  induction F as [|x y l m H F IH]; intros Nd a b c Ha Hb; [destruct Ha|]. cbn in E. injection E as E1 E2. inversion Nd as [|? ? N1 N2]; subst.
  destruct Ha as [->|Ha], Hb as [->|Hb].
  - exact H.
  - exfalso. apply N1. cbn. rewrite <- E2. apply in_map_iff. exists (b, c). auto.
  - exfalso. apply N1. rewrite <- E1. cbn. apply in_map_iff. exists (a, c). auto.
  - apply IH; assumption.
Qed.

Section Links.
Variable step : nat -> sdev -> sop -> option (result (sdev * list sevent)).
Variable dur : nat -> Z -> Z.
Variable spread : Z -> nat -> Z -> Z -> result (list hop).
Context {F : Type}.
Variable hears : F -> nat -> bool.
Variable x0 : nat -> F.
Variable inv : nat -> sdev -> list sevent -> Prop.
Hypothesis dur_pos : forall i u, 0 <= dur i u.
Hypothesis inv_init : forall i, inv i s_init [].
Hypothesis inv_serial : forall i d tr, inv i d tr -> t_inv (dur i) d tr.
Hypothesis inv_step : forall i d tr o d' ev, inv i d tr -> step i d o = Some (Ok (d', ev)) -> inv i d' (tr ++ ev) /\ moves (dur i) d o ev d'.
Variables T D : Z.
Variable n : nat.
Hypothesis dur_max : forall i u, dur i u <= T.
Hypothesis D_pos : 0 <= D.
Hypothesis hops_in : forall t i u p hops after r lasts, spread t i u p = Ok hops -> In (Reach after r lasts) hops -> 0 <= after <= D /\ 0 <= lasts <= T.
Hypothesis room : forall i d o d' ev, step i d o = Some (Ok (d', ev)) -> forall t u p, In (SAccept t u p) ev -> (List.length (s_queue d) < n)%nat.

Notation linv := (l_inv step spread hears x0 inv).

Lemma link_waits : forall (ns : list (knote F)) y i, linv ns y -> Forall2 (waits T n) (requests (dev_events i ns)) (in_turn (dur i) 0 (requests (dev_events i ns))).
Proof.
  intros ns y i V. pose proof (li_dev _ _ _ _ _ _ _ V i) as R.
  assert (K : inv i (l_dev y i) ([] ++ dev_events i ns) /\ Forall2 (waits T n) (requests ([] ++ dev_events i ns)) (in_turn (dur i) 0 (requests ([] ++ dev_events i ns)))).
  { apply (s_run_inv (step i) (fun d tr => inv i d tr /\ Forall2 (waits T n) (requests tr) (in_turn (dur i) 0 (requests tr)))) with (ops := dev_ops i ns) (d := s_init).
    - intros d tr o d' ev (I1 & I2) S. destruct (inv_step i d tr o d' ev I1 S) as (J1 & J2). split; [exact J1|].
      exact (waits_step (dur i) T n (dur_pos i) (dur_max i) d tr o ev d' (inv_serial _ _ _ I1) J2 (room i d o d' ev S) I2).
    - split; [apply inv_init|constructor].
    - exact R. }
  exact (proj2 K).
Qed.

Lemma link_starts : forall (ns : list (knote F)) y i, linv ns y -> exists ahead, in_turn (dur i) 0 (requests (dev_events i ns)) = starts (airings (dev_events i ns)) ++ ahead /\
  map snd ahead = s_queue (l_dev y i) /\ (forall x, In x ahead -> l_now y <= fst x).
Proof.
  intros ns y i V. pose proof (inv_serial _ _ _ (li_inv _ _ _ _ _ _ _ V i)) as [Nw Sh _ _ _].
  destruct Sh as [(B & P & Q & _ & E)|(c & l & B & P & N & St & E & _)].
  - exists []. rewrite app_nil_r, Q. repeat split; [congruence|intros x []].
  - exists (plan (dur i) (c_end c) (s_queue (l_dev y i))). split; [exact E|]. split; [apply plan_uids|]. intros x K. apply (plan_ge (dur i) (dur_pos i)) in K.
    assert (l_now y <= c_end c); [|lia].
    pose proof (li_ends _ _ _ _ _ _ _ V i) as En. rewrite P in En. cbn in En. apply Permutation_sym, Permutation_length_1_inv in En.
    assert (Hc : In (c_end c) (ends i (l_queue y))) by (rewrite En; left; reflexivity). unfold ends in Hc. apply in_flat_map in Hc. destruct Hc as ([t e] & Hq & He).
    pose proof (li_future _ _ _ _ _ _ _ V) as Fu. rewrite Forall_forall in Fu. specialize (Fu _ Hq). cbn in Fu, He. destruct e as [j| |]; try destruct He. destruct (j =? i)%nat; [|destruct He]. destruct He as [He|[]]. lia.
Qed.

Lemma flight_from : forall (ns : list (knote F)) y f, linv ns y -> In f (all_carried spread (sendings ns)) -> exists s, In (s, fl_uid f) (starts (airings (dev_events (fl_src f) ns))) /\
  s <= fl_arr f <= s + D /\ fl_arr f <= fl_end f <= s + D + T.
Proof.
  intros ns y f V H. apply in_flat_map in H. destruct H as (s & Hs & H). unfold fates, hops_of in H.
  destruct (spread _ _ _ _) as [hops| | |] eqn:E; cbn in H; try contradiction.
  apply in_flat_map in H. destruct H as ([|after r lasts] & Hin & H); cbn in H; [contradiction|]. destruct H as [<-|[]].
  destruct (hops_in _ _ _ _ _ _ _ _ E Hin) as (A & B). unfold fl_end. cbn [fl_uid fl_src fl_arr fl_lasts].
  exists (sd_time s). split; [|lia].
  assert (Hf : In s (filter (from (sd_from s)) (sendings ns))) by (apply filter_In; split; [exact Hs|apply Nat.eqb_refl]).
  rewrite (device_sendings step spread hears x0 inv ns y (sd_from s) V) in Hf. apply in_map_iff in Hf. destruct Hf as (a & <- & Ha). cbn. apply in_map_iff. exists a. auto.
Qed.

Lemma link_over : forall (ns : list (knote F)) y i, linv ns y -> over_within ((Z.of_nat n + 1) * T + D) i y ns.
Proof.
  intros ns y i V Nd t u Hr. pose proof (link_waits ns y i V) as W. destruct (link_starts ns y i V) as (ahead & E & Eq & Fu).
  assert (Wt : forall s, In (s, u) (in_turn (dur i) 0 (requests (dev_events i ns))) -> t <= s <= t + Z.of_nat n * T).
  { intros s Hs. destruct (pick _ _ _ _ _ _ (fun a b (H : waits T n a b) => proj1 H) W Nd t s u Hr Hs) as (_ & H). exact H. }
  pose proof (dur_pos i 0). pose proof (dur_max i 0).
  assert (Fl : forall f, In f (all_carried spread (sendings ns)) -> fl_src f = i -> fl_uid f = u -> t <= fl_arr f <= fl_end f /\ fl_end f <= t + ((Z.of_nat n + 1) * T + D)).
  { intros f Hf <- <-. destruct (flight_from ns y f V Hf) as (s & Hs & B1 & B2). assert (Ws : t <= s <= t + Z.of_nat n * T) by (apply Wt; rewrite E; apply in_or_app; auto). lia. }
  assert (Tk : forall f, In f (taken ns) -> In f (all_carried spread (sendings ns))).
  { intros f Hf. eapply Permutation_in; [exact (li_fly _ _ _ _ _ _ _ V)|]. apply in_or_app. left. unfold taken in Hf. unfold arrived. apply in_flat_map in Hf. destruct Hf as (m & Hm & Hf).
    apply in_flat_map. exists m. split; [exact Hm|]. destruct m as [| |? ? []| |]; cbn in *; tauto. }
  split.
  - intros [Hu|(f & Hf & Es & Eu)].
    + rewrite <- Eq in Hu. apply in_map_iff in Hu. destruct Hu as ([s u'] & Hu & Ha). cbn in Hu. subst u'. pose proof (Fu _ Ha) as N. cbn in N.
      assert (Ws : t <= s <= t + Z.of_nat n * T) by (apply Wt; rewrite E; apply in_or_app; auto).
      lia.
    + assert (Hc : In f (all_carried spread (sendings ns)) /\ l_now y <= fl_end f).
      { pose proof (li_future _ _ _ _ _ _ _ V) as Fe. rewrite Forall_forall in Fe. pose proof (li_events _ _ _ _ _ _ _ V) as Ev. rewrite Forall_forall in Ev. apply in_app_or in Hf. destruct Hf as [Hf|Hf].
        - assert (Hc : In f (all_carried spread (sendings ns))) by (eapply Permutation_in; [exact (li_fly _ _ _ _ _ _ _ V)|apply in_or_app; auto]).
          split; [exact Hc|]. destruct (Fl f Hc Es Eu) as (K & _). unfold flying in Hf. apply in_flat_map in Hf. destruct Hf as ([t' e] & Hq & He). cbn in He. destruct e; cbn in He; try contradiction.
          destruct He as [->|[]]. pose proof (Fe _ Hq) as N1. pose proof (Ev _ Hq) as N2. cbn in N1, N2. lia.
        - split.
          + apply Tk. eapply Permutation_in; [exact (li_arr _ _ _ _ _ _ _ V)|apply in_or_app; auto].
          + unfold arriving in Hf. apply in_flat_map in Hf. destruct Hf as ([t' e] & Hq & He). cbn in He. destruct e; cbn in He; try contradiction.
            destruct He as [->|[]]. pose proof (Fe _ Hq) as N1. pose proof (Ev _ Hq) as N2. cbn in N1, N2. lia. }
      destruct Hc as (Hc & N). destruct (Fl f Hc Es Eu). lia.
  - intros tm f Hk Es Eu. pose proof (li_ups _ _ _ _ _ _ _ V _ _ Hk) as ->.
    assert (Hp : In f (passed ns)) by (unfold passed; apply in_flat_map; exists (KUp (fl_end f) f); split; [exact Hk|left; reflexivity]).
    assert (Hc : In f (all_carried spread (sendings ns))) by (apply Tk; eapply Permutation_in; [exact (li_arr _ _ _ _ _ _ _ V)|apply in_or_app; auto]).
    destruct (Fl f Hc Es Eu). lia.
Qed.
End Links.
