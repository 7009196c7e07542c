From Coq Require Import ZArith List Lia Bool Reals Lra Permutation Sorting.Sorted.
From Flocq Require Import Core BinarySingleNaN.
From Verif Require Import Base RxModel RxSpec RxProofs AlohaModel AlohaSpec AlohaProofs DoubleModel DoubleSpec DoubleProofs DoubleDistanceProofs PowerModel PowerSpec.
Import ListNotations.
Open Scope Z_scope.

(** ** The control is that of exact powers *)
Definition alike (d : rx_state aloha_d) (s : rx_state aloha) : Prop :=
  st_now d = st_now s /\ st_pending d = st_pending s /\ map fst (st_log d) = map fst (st_log s) /\
  ad_uid (st_mac d) = al_uid (st_mac s) /\ ad_finish (st_mac d) = al_finish (st_mac s) /\ ad_coll (st_mac d) = al_coll (st_mac s).

Lemma alike_step : forall low below d s o d', alike d s -> rx_step (aloha_d_mac low) d o = Some (Ok d') ->
  exists s', rx_step (aloha_mac below) s o = Some (Ok s') /\ alike d' s'.
Proof.
  intros low below d s o d' (E1 & E2 & E3 & E4 & E5 & E6) R. destruct o as [t u x p|]; cbn [rx_step] in *.
  - rewrite <- E1, <- E2. destruct (_ && _); [|discriminate]. injection R as <-. eexists. split; [reflexivity|].
    unfold alike. cbn [st_now st_pending st_log st_mac]. repeat (split; [auto; fail|]).
    cbn [aloha_d_mac aloha_mac mac_start]. unfold ad_begin, aloha_start. cbn [rx_start rx_end rx_uid].
    destruct (st_mac d) as [v1 v2 v3 v4], (st_mac s) as [w1 w2 w3 w4]. cbn [ad_uid ad_finish ad_coll al_uid al_finish al_coll] in *. subst w1 w2 w3.
    destruct v1 as [v|]; cbn [andb negb orb]; [|cbn; auto].
    destruct (t <? v2); cbn [ad_finish al_finish]; destruct (v2 <=? t + x); cbn; auto.
  - rewrite <- E2. destruct (st_pending d) as [|a l]; [discriminate|]. cbn [aloha_d_mac aloha_mac mac_finish ad_end aloha_finish rbind] in *.
    injection R as <-. eexists. split; [reflexivity|]. unfold alike. cbn [st_now st_pending st_log st_mac]. rewrite !map_app, E3. cbn [map fst].
    repeat (split; [auto; fail|]).
    destruct (st_mac d) as [v1 v2 v3 v4], (st_mac s) as [w1 w2 w3 w4]. cbn [ad_uid ad_finish ad_coll al_uid al_finish al_coll] in *. subst w1 w2 w3.
    destruct v1 as [v|]; [destruct (v =? rx_uid a)|]; cbn; auto.
Qed.

(** What the receiver knows of the stretch. *)
Definition d_inv (d : rx_state aloha_d) (first : option reception) (joined : list reception) : Prop :=
  st_pending d <> [] -> exists f, first = Some f /\ ad_power (st_mac d) = sum_d f joined /\
    ad_coll (st_mac d) = match joined with [] => false | _ => true end.

Lemma sum_d_app : forall f joined r, sum_d f (joined ++ [r]) = dadd (sum_d f joined) (power r).
Proof. intros. unfold sum_d. rewrite fold_left_app. reflexivity. Qed.

Lemma last_end : forall l o y, StronglySorted by_end l -> last_of l = Some o -> In y l -> rx_end y <= rx_end o.
Proof.
  intros l o y So El Hy. revert y Hy. destruct l as [|z l' _] using rev_ind; [discriminate|]. rewrite last_of_snoc in El. injection El as ->.
  intros y Hy. apply in_app_iff in Hy. destruct Hy as [Hy|[<-|[]]]; [|lia]. induction l' as [|w l' IHl']; [contradiction|]. cbn in So. inversion So; subst.
  destruct Hy as [<-|Hy]; [|auto]. rewrite Forall_forall in H2. apply H2. apply in_or_app; right; left; auto.
Qed.

Section Double.
Variable low : double -> bool.
Notation macd := (aloha_d_mac low).
Notation mace := (aloha_mac no_capture).

Lemma double_stretches : forall ops d d' s first joined,
  rx_run macd d ops = Some (Ok d') -> alike d s -> StronglySorted by_end (st_pending d) -> NoDup (map rx_uid (st_pending d)) -> owner_inv s -> d_inv d first joined ->
  separate (st_pending d) ops ->
  exists new, st_log d' = st_log d ++ new /\ map fst new = map (fun e => fst (fst e)) (stretches (st_pending d) first joined ops) /\
    Forall2 (judged_double low) (stretches (st_pending d) first joined ops) (map snd new).
Proof.
  induction ops as [|o ops IH]; intros d d' s first joined R Al So N Ow In0 Se.
  - cbn in R. injection R as <-. exists []. rewrite app_nil_r. repeat split; constructor.
  - cbn [rx_run] in R. destruct (rx_step macd d o) as [[d1| | |]|] eqn:E; try discriminate.
    destruct (alike_step low no_capture d s o d1 Al E) as (s1 & Es & Al1). pose proof Al as (_ & A2 & _ & A4 & A5 & A6).
    destruct o as [t u x p|].
    + pose proof (owner_start no_capture s _ s1 ltac:(rewrite <- A2; exact So) Ow Es ltac:(eauto 6)) as Ow1.
      cbn [separate] in Se. destruct Se as [Se1 Se2].
      pose proof E as E'. cbn [rx_step] in E'. destruct (_ && _) eqn:G; [|discriminate]. injection E' as E'.
      set (r := mkRx u t (t + x) p) in *.
      assert (So1 : StronglySorted by_end (st_pending d1)) by (rewrite <- E'; cbn [st_pending]; apply schedule_sorted; exact So).
      assert (N1 : NoDup (map rx_uid (st_pending d1))).
      { rewrite <- E'. cbn [st_pending]. eapply Permutation_NoDup; [apply Permutation_map; apply Permutation_sym, schedule_perm|].
        cbn [map]. constructor; [|exact N]. intros I0. apply in_map_iff in I0. destruct I0 as (q & Eq & Hq). rewrite Forall_forall in Se1. exact (Se1 q Hq Eq). }
      assert (Lg : st_log d1 = st_log d) by (rewrite <- E'; reflexivity).
      assert (Pn : st_pending d1 = schedule r (st_pending d)) by (rewrite <- E'; reflexivity).
      cbn [stretches]. fold r. unfold owner_inv in Ow. rewrite <- A2, <- A4, <- A5, <- A6 in Ow. destruct (st_pending d) as [|q l] eqn:Ep.
      * cbn [schedule] in Pn. rewrite <- Pn. rewrite <- Lg. apply (IH d1 d' s1); auto.
        -- intros _. exists r. split; [reflexivity|]. destruct Ow as [O1 O2].
           rewrite <- E'. cbn [st_mac aloha_d_mac mac_start]. unfold ad_begin. rewrite O1. cbn. rewrite O2. split; reflexivity.
        -- rewrite Pn. exact Se2.
      * rewrite <- Pn. rewrite <- Lg. apply (IH d1 d' s1); auto; [|rewrite Pn; exact Se2]. intros _.
        destruct (In0 ltac:(rewrite Ep; discriminate)) as (f & F1 & F2 & F3). exists f. split; [exact F1|].
        rewrite <- E'. cbn [st_mac aloha_d_mac mac_start].
        destruct (last_of (q :: l)) as [o|] eqn:El; [|apply last_of_none in El; discriminate].
        destruct Ow as [O1 O2]. pose proof (last_of_in _ _ El) as Io.
        assert (Tst : existsb (fun y => t <? rx_end y) (q :: l) = (t <? rx_end o)).
        { destruct (Z.ltb_spec t (rx_end o)) as [L|L].
          - apply existsb_exists. exists o. split; [exact Io|apply Z.ltb_lt; exact L].
          - apply Bool.not_true_is_false. intros X. apply existsb_exists in X. destruct X as (y & Hy & Ly). apply Z.ltb_lt in Ly.
            pose proof (last_end _ _ _ So El Hy). lia. }
        rewrite Tst. unfold ad_begin. rewrite O1. cbn [andb negb orb]. change (rx_start r) with t. rewrite O2.
        destruct (t <? rx_end o); cbn [ad_finish ad_power ad_coll].
        -- destruct (rx_end o <=? rx_end r); cbn [ad_power ad_coll]; (split; [rewrite F2, sum_d_app; reflexivity|destruct joined; reflexivity]).
        -- rewrite O2. destruct (rx_end o <=? rx_end r); cbn [ad_power ad_coll]; tauto.
    + pose proof (owner_finish no_capture s s1 ltac:(rewrite <- A2; exact N) Ow Es) as Ow1. cbn [separate] in Se. cbn [rx_step] in E.
      unfold owner_inv in Ow. rewrite <- A2, <- A4, <- A5, <- A6 in Ow.
      destruct (st_pending d) as [|a l] eqn:Ep; [discriminate|]. cbn [aloha_d_mac mac_finish ad_end rbind] in E. injection E as E.
      destruct (In0 ltac:(rewrite Ep; discriminate)) as (f & F1 & F2 & F3). cbn [tl] in Se.
      assert (Pn : st_pending d1 = l) by (rewrite <- E; reflexivity).
      destruct (IH d1 d' s1 first joined R) as (new & L1 & L2 & L3); auto.
      * rewrite Pn. inversion So; auto.
      * rewrite Pn. inversion N; auto.
      * intros X. exists f. split; [exact F1|]. rewrite <- E. cbn [st_mac]. rewrite Pn in X.
        destruct l as [|y l' _] using rev_ind; [congruence|].
        change (a :: l' ++ [y]) with ((a :: l') ++ [y]) in Ow. rewrite last_of_snoc in Ow. destruct Ow as [O1 _]. rewrite O1.
        destruct (Z.eqb_spec (rx_uid y) (rx_uid a)) as [Y|Y]; [exfalso|tauto].
        cbn [map] in N. inversion N; subst. apply H1. rewrite map_app, <- Y. apply in_or_app. right; left; auto.
      * rewrite Pn. exact Se.
      * cbn [stretches]. eexists (_ :: new). rewrite L1, <- E. cbn [st_log]. rewrite <- app_assoc. split; [reflexivity|].
        cbn [map fst snd]. rewrite Pn in L2, L3. split; [f_equal; exact L2|]. constructor; [|exact L3].
        unfold judged_double. exists f. split; [exact F1|]. rewrite F2, F3. destruct joined as [|j joined]; cbn [andb]; [left; split; auto|].
        destruct (low (ddiv (power a) (dsub (sum_d f (j :: joined)) (power a)))); [right|left]; (split; [|reflexivity]); [split; [discriminate|reflexivity]|right; reflexivity].
Qed.
End Double.

(** ** Without ties every frame counts where it ends *)
Lemma counted : forall ops pending first joined,
  (pending <> [] -> exists f, first = Some f /\ forall r, In r pending -> In r (f :: joined)) -> finish_first pending ops ->
  forall e, In e (stretches pending first joined ops) -> In (fst (fst e)) (crowd e).
Proof.
  induction ops as [|o ops IH]; intros pending first joined H Ff e He; [contradiction|]. destruct o as [t u x p|]; cbn [stretches finish_first] in *.
  - destruct Ff as [F1 F2]. set (r := mkRx u t (t + x) p) in *. destruct pending as [|q l].
    + refine (IH [r] (Some r) [] _ F2 e He). intros _. exists r. split; [reflexivity|]. intros y [<-|[]]. left; reflexivity.
    + assert (Ex : existsb (fun y => t <? rx_end y) (q :: l) = true).
      { apply existsb_exists. exists q. split; [left; reflexivity|]. inversion F1; subst. apply Z.ltb_lt. assumption. }
      rewrite Ex in He. refine (IH _ _ _ _ F2 e He). intros _. destruct (H ltac:(discriminate)) as (f & E & Hf). exists f. split; [exact E|].
      intros y Hy. apply schedule_in in Hy. destruct Hy as [->|Hy]; [right; apply in_or_app; right; left; reflexivity|].
      destruct (Hf y Hy) as [->|Hj]; [left; reflexivity|right; apply in_or_app; left; exact Hj].
  - destruct pending as [|a rest]; [contradiction|]. destruct (H ltac:(discriminate)) as (f & E & Hf). destruct He as [<-|He].
    + unfold crowd. cbn [fst snd]. rewrite E. apply Hf. left; reflexivity.
    + refine (IH _ _ _ _ Ff e He). intros _. exists f. split; [exact E|]. intros y Hy. apply Hf. right; exact Hy.
Qed.

(** All that counts was received. *)
Lemma crowd_received : forall ops pending first joined K, (forall f, first = Some f -> In f K) -> incl joined K -> incl (receptions ops) K ->
  forall e, In e (stretches pending first joined ops) -> incl (crowd e) K.
Proof.
  induction ops as [|o ops IH]; intros pending first joined K Hf Hj Hr e He; [contradiction|]. destruct o as [t u x p|]; cbn [stretches] in He.
  - change (receptions (OStart t u x p :: ops)) with (mkRx u t (t + x) p :: receptions ops) in Hr.
    assert (H1 : In (mkRx u t (t + x) p) K) by (apply Hr; left; reflexivity). assert (H2 : incl (receptions ops) K) by (intros y Hy; apply Hr; right; exact Hy).
    destruct pending as [|q l].
    + apply (IH _ _ _ K) in He; [exact He| |intros y []|exact H2]. intros f E. injection E as <-. exact H1.
    + apply (IH _ _ _ K) in He; [exact He|exact Hf| |exact H2]. destruct (existsb _ _); [|exact Hj].
      intros y Hy. apply in_app_iff in Hy. destruct Hy as [Hy|[<-|[]]]; auto.
  - destruct pending as [|a rest]; [contradiction|]. destruct He as [<-|He].
    + unfold crowd. cbn [fst snd]. destruct first as [f|]; [|exact Hj]. intros y [<-|Hy]; [apply Hf; reflexivity|apply Hj; exact Hy].
    + apply (IH _ _ _ K) in He; auto.
Qed.

(** ** Values *)
Open Scope R_scope.
Definition unit_ : R := bpow radix2 (-1074).
Lemma unit_pos : 0 < unit_. Proof. apply bpow_gt_0. Qed.
Definition mw (r : reception) : R := IZR (rx_pow r) * unit_.

Lemma power_val : forall r, sound_power r -> is_finite (power r) = true /\ val (power r) = mw r /\ 0 < mw r /\ mw r <= bpow radix2 800.
Proof.
  intros r ((H1 & H2) & d & Fd & Vd). change (real_of d) with (val d) in Vd.
  assert (B : mw r <= bpow radix2 800).
  { unfold mw, unit_. replace (bpow radix2 800) with (IZR (2 ^ 1874) * bpow radix2 (-1074)).
    - apply Rmult_le_compat_r; [apply bpow_ge_0|]. apply IZR_le. exact H2.
    - change (IZR (2 ^ 1874)) with (IZR (Zpower radix2 1874)). rewrite IZR_Zpower by lia. rewrite <- bpow_plus. reflexivity. }
  assert (P : 0 < mw r). { apply Rmult_lt_0_compat; [apply IZR_lt; lia|apply bpow_gt_0]. }
  assert (Bn : Rabs (IZR (rx_pow r) * bpow radix2 (-1074)) <= bpow radix2 1023).
  { rewrite Rabs_pos_eq by (apply Rlt_le; exact P). apply Rle_trans with (1 := B). apply bpow_le. lia. }
  destruct (dnum_ok (rx_pow r) (-1074) Bn) as [F V]. split; [exact F|]. split; [|split; assumption].
  change (val (power r)) with (val (dnum (rx_pow r) (-1074))). rewrite V, <- Vd. rewrite double_self. exact Vd.
Qed.

Definition mws (l : list reception) : R := IZR (AlohaSpec.total l) * unit_.
Lemma mws_cons : forall r l, mws (r :: l) = mw r + mws l.
Proof. intros. unfold mws, mw. cbn [AlohaSpec.total fold_right]. rewrite plus_IZR. fold (AlohaSpec.total l). ring. Qed.
Lemma mws_nonneg : forall l, Forall sound_power l -> 0 <= mws l.
Proof.
  intros l H. induction H as [|r l Hr Hl IH]; [unfold mws; cbn; lra|]. rewrite mws_cons. destruct (power_val r Hr) as (_ & _ & P & _). lra.
Qed.

(** One power after the other: the error grows by two roundings of the whole each time. *)
Lemma sum_close : forall l s S k B, Forall sound_power l -> is_finite s = true -> 0 <= S -> 0 <= k -> Rabs (val s - S) <= k * (2 * u) * B ->
  S + mws l <= B -> B <= bpow radix2 1000 -> (k + INR (length l)) * (2 * u) <= / 2 ->
  let s' := fold_left (fun x r => dadd x (power r)) l s in
  is_finite s' = true /\ Rabs (val s' - (S + mws l)) <= (k + INR (length l)) * (2 * u) * B.
Proof.
  induction l as [|r l IH]; intros s S k B Hl Fs S0 K0 Er HB Bb Kk.
  - cbn. unfold mws. cbn. split; [exact Fs|]. rewrite Rmult_0_l, !Rplus_0_r. exact Er.
  - inversion Hl as [|? ? Hr Hl']; subst. destruct (power_val r Hr) as (Fr & Vr & Pr & _). pose proof (mws_nonneg l Hl') as Nl. rewrite mws_cons in *.
    cbn [length] in Kk. rewrite S_INR in Kk. pose proof (pos_INR (length l)) as LI. pose proof u_pos as Up.
    assert (B0 : 0 <= B) by lra. assert (KB : k * (2 * u) * B <= / 2 * B).
    { apply Rmult_le_compat_r; [exact B0|]. apply Rle_trans with (2 := Kk). apply Rmult_le_compat_r; lra. }
    apply Rabs_le_inv in Er.
    assert (Bd : Rabs (val s + val (power r)) <= 2 * B) by (apply Rabs_le; rewrite Vr; lra).
    assert (B1 : 2 * B <= bpow radix2 1023).
    { apply Rle_trans with (bpow radix2 1001); [|apply bpow_le; lia]. change 1001%Z with (1 + 1000)%Z. rewrite bpow_plus. change (bpow radix2 1) with 2. lra. }
    destruct (dadd_ok s (power r) Fs Fr) as [Fa Va]; [lra|]. destruct (rnd_plus s (power r)) as (e & He & Re).
    cbn [fold_left]. destruct (IH (dadd s (power r)) (S + mw r) (k + 1) B Hl' Fa) as [F1 E1]; try lra.
    + rewrite Va, Re. replace ((val s + val (power r)) * (1 + e) - (S + mw r)) with ((val s - S) + e * (val s + val (power r))) by (rewrite Vr; ring).
      apply Rle_trans with (1 := Rabs_triang _ _). rewrite Rabs_mult. replace ((k + 1) * (2 * u) * B) with (k * (2 * u) * B + u * (2 * B)) by ring.
      apply Rplus_le_compat; [apply Rabs_le; lra|]. apply Rmult_le_compat; auto using Rabs_pos.
    + split; [exact F1|]. cbn [length]. rewrite S_INR. replace (S + (mw r + mws l)) with (S + mw r + mws l) by ring.
      replace (k + (INR (length l) + 1)) with (k + 1 + INR (length l)) by ring. exact E1.
Qed.

(** The sum over a stretch of [n] frames, and what is left without one of them. *)
Lemma mws_bound : forall l b, (forall r, In r l -> mw r <= b) -> mws l <= INR (length l) * b.
Proof.
  induction l as [|r l IH]; intros b H; [unfold mws; cbn; lra|]. rewrite mws_cons. cbn [length]. rewrite S_INR.
  specialize (IH b (fun x Hx => H x (or_intror Hx))). pose proof (H r (or_introl eq_refl)). lra.
Qed.

Lemma sum_of_stretch : forall f l, Forall sound_power (f :: l) -> INR (length (f :: l)) <= bpow radix2 40 ->
  is_finite (sum_d f l) = true /\ Rabs (val (sum_d f l) - mws (f :: l)) <= INR (length (f :: l)) * (2 * u) * mws (f :: l) /\ mws (f :: l) <= bpow radix2 840.
Proof.
  intros f l H N. pose proof H as H'. inversion H' as [|? ? Hf Hl]; subst. destruct (power_val f Hf) as (Ff & Vf & Pf & _).
  assert (T : mws (f :: l) <= bpow radix2 840).
  { apply Rle_trans with (INR (length (f :: l)) * bpow radix2 800).
    - apply mws_bound. intros r Hr. rewrite Forall_forall in H. apply (power_val r (H r Hr)).
    - change 840%Z with (40 + 800)%Z. rewrite bpow_plus. apply Rmult_le_compat_r; [apply bpow_ge_0|exact N]. }
  pose proof u_pos as Up. pose proof u_val as Uv. pose proof (mws_nonneg l Hl) as Nl. rewrite mws_cons in *.
  assert (E40 : bpow radix2 40 = 1099511627776) by reflexivity. rewrite E40 in N.
  cbn [length] in *. rewrite S_INR in *. pose proof (pos_INR (length l)) as LI.
  assert (Nu : (INR (length l) + 1) * (2 * u) <= / 2).
  { rewrite Uv. apply Rle_trans with (1099511627776 * (2 * / 9007199254740992)); [apply Rmult_le_compat_r; lra|lra]. }
  destruct (sum_close l (power f) (mw f) 0 (mw f + mws l) Hl Ff) as [F1 E1]; try lra.
  - rewrite Vf. unfold Rminus. rewrite Rplus_opp_r, Rabs_R0. lra.
  - apply Rle_trans with (1 := T). apply bpow_le. lia.
  - split; [exact F1|]. split; [|exact T]. rewrite Rplus_0_l in E1. apply Rle_trans with (1 := E1).
    apply Rmult_le_compat_r; [lra|]. apply Rmult_le_compat_r; lra.
Qed.

Lemma mws_split : forall l a, In a l -> Forall sound_power l -> exists rest, mws l = mw a + mws rest /\ length l = S (length rest) /\ incl rest l.
Proof.
  intros l a Ha H. apply in_split in Ha. destruct Ha as (x & y & ->). exists (x ++ y). split; [|split].
  - clear H. induction x as [|r x IH]; cbn [app]; rewrite ?mws_cons; [reflexivity|]. rewrite IH. ring.
  - rewrite !app_length. cbn. lia.
  - intros z Hz. apply in_app_iff in Hz. apply in_app_iff. cbn. tauto.
Qed.

(** ** The default threshold *)
Lemma low_max_finite : forall q : double, is_finite q = true -> 0 <= val q -> low_max q = true.
Proof.
  intros q F V. destruct q as [b|b| |b m e B]; try reflexivity; try discriminate. cbn [low_max]. destruct b; [|reflexivity]. exfalso.
  cbn [B2R] in V. apply (Rlt_not_le 0 _) in V; [exact V|]. apply F2R_lt_0. cbn. lia.
Qed.

Lemma default_low : forall f l a, Forall sound_power (f :: l) -> INR (length (f :: l)) <= bpow radix2 40 -> In a (f :: l) ->
  INR (length (f :: l)) * mw a < bpow radix2 50 * (mws (f :: l) - mw a) ->
  low_max (ddiv (power a) (dsub (sum_d f l) (power a))) = true.
Proof.
  intros f l a H N Ha Hw. destruct (sum_of_stretch f l H N) as (Fs & Es & Ts). pose proof H as H'. rewrite Forall_forall in H'.
  destruct (power_val a (H' a Ha)) as (Fa & Va & Pa & Ba). set (n := INR (length (f :: l))) in *. set (T := mws (f :: l)) in *. set (X := T - mw a) in *.
  assert (N1 : 1 <= n). { unfold n. cbn [length]. rewrite S_INR. pose proof (pos_INR (length l)). lra. }
  assert (E50 : bpow radix2 50 = 1125899906842624) by reflexivity. assert (E40 : bpow radix2 40 = 1099511627776) by reflexivity. rewrite E50 in Hw. rewrite E40 in N.
  pose proof u_val as Uv. pose proof u_pos as Up.
  assert (X0 : 0 < X). { assert (0 < n * mw a) by (apply Rmult_lt_0_compat; lra). lra. }
  assert (En : n * (2 * u) * T <= / 2 * X).
  { replace T with (X + mw a) by (unfold X; ring). replace (n * (2 * u) * (X + mw a)) with (2 * u * (n * X) + 2 * u * (n * mw a)) by ring.
    assert (n * X <= 1099511627776 * X) by (apply Rmult_le_compat_r; lra). rewrite Uv. lra. }
  apply Rabs_le_inv in Es.
  assert (Bd : Rabs (val (sum_d f l) - val (power a)) <= bpow radix2 1023).
  { apply Rle_trans with (bpow radix2 841); [|apply bpow_le; lia]. change 841%Z with (1 + 840)%Z. rewrite bpow_plus. change (bpow radix2 1) with 2.
    rewrite Va. apply Rabs_le. unfold X in *. lra. }
  destruct (dsub_ok _ _ Fs Fa Bd) as [Fi Vi]. destruct (minus_error (sum_d f l) (power a)) as (e & He & Re).
  assert (I0 : / 4 * X <= val (dsub (sum_d f l) (power a))).
  { rewrite Vi, Re, Va. apply Rabs_le_inv in He. assert (/ 2 * X <= val (sum_d f l) - mw a) by (unfold X in *; lra).
    assert (/ 2 <= 1 + e) by (rewrite Uv in He; lra). replace (/ 4 * X) with ((/ 2 * X) * / 2) by field.
    apply Rmult_le_compat; lra. }
  assert (Q0 : 0 <= val (power a) / val (dsub (sum_d f l) (power a)) <= 4 * 1125899906842624).
  { rewrite Va. split; [apply Rmult_le_pos; [lra|]; apply Rlt_le, Rinv_0_lt_compat; lra|].
    apply (Rmult_le_reg_r (val (dsub (sum_d f l) (power a)))); [lra|]. unfold Rdiv. rewrite Rmult_assoc, Rinv_l, Rmult_1_r by lra.
    assert (1 * mw a <= n * mw a) by (apply Rmult_le_compat_r; lra). lra. }
  destruct (ddiv_ok (power a) (dsub (sum_d f l) (power a)) Fa) as [Fq Vq]; [lra| |].
  - apply Rle_trans with (bpow radix2 60); [|apply bpow_le; lia]. assert (E60 : bpow radix2 60 = 1152921504606846976) by reflexivity. rewrite E60. apply Rabs_le. lra.
  - apply low_max_finite; [exact Fq|]. rewrite Vq. apply rnd_nonneg. lra.
Qed.

(** ** Other thresholds *)
Lemma mws_member : forall l a, In a l -> Forall sound_power l -> mw a <= mws l.
Proof.
  intros l a Ha H. destruct (mws_split l a Ha H) as (rest & E & _ & Hi). rewrite E.
  assert (0 <= mws rest); [|lra]. apply mws_nonneg. rewrite Forall_forall in *. intros x Hx. apply H, Hi, Hx.
Qed.

Lemma comparable_mw : forall l, comparable l -> forall a b, In a l -> In b l -> INR (length l) * INR (length l) * mw a <= bpow radix2 36 * mw b.
Proof.
  intros l C a b Ha Hb. specialize (C a b Ha Hb). apply IZR_le in C. rewrite !mult_IZR in C. rewrite <- !INR_IZR_INZ in C.
  unfold mw. assert (E : bpow radix2 36 = IZR (2 ^ 36)) by reflexivity. rewrite E. rewrite <- !Rmult_assoc. apply Rmult_le_compat_r; [apply Rlt_le, unit_pos|exact C].
Qed.

Lemma ratio_close : forall f l a, Forall sound_power (f :: l) -> comparable (f :: l) -> In a (f :: l) -> l <> [] ->
  let X := mws (f :: l) - mw a in let q := ddiv (power a) (dsub (sum_d f l) (power a)) in
  0 < X /\ is_finite q = true /\ 0 < val q /\ mw a * (1 - bpow radix2 (-14)) <= val q * X <= mw a * (1 + bpow radix2 (-14)).
Proof.
  intros f l a H C Ha Hl X q. pose proof (comparable_mw _ C) as Cm. pose proof H as H'. rewrite Forall_forall in H'.
  destruct (power_val a (H' a Ha)) as (Fa & Va & Pa & Ba). set (n := INR (length (f :: l))) in *.
  assert (N2 : 2 <= n). { unfold n. destruct l as [|r l]; [congruence|]. cbn [length]. rewrite !S_INR. pose proof (pos_INR (length l)). lra. }
  assert (E36 : bpow radix2 36 = 68719476736) by reflexivity. assert (E40 : bpow radix2 40 = 1099511627776) by reflexivity.
  assert (N : n <= bpow radix2 40).
  { pose proof (Cm a a Ha Ha) as Q. rewrite E36 in Q. rewrite E40. apply Rmult_le_reg_r in Q; [|exact Pa].
    assert (n * 2 <= n * n) by (apply Rmult_le_compat_l; lra). lra. }
  destruct (sum_of_stretch f l H N) as (Fs & Es & Ts). pose proof u_val as Uv. pose proof u_pos as Up.
  destruct (mws_split (f :: l) a Ha H) as (rest & Er & Lr & Hi).
  assert (Rs : Forall sound_power rest) by (rewrite Forall_forall; intros x Hx; apply H', Hi, Hx).
  assert (XE : X = mws rest) by (unfold X; rewrite Er; ring).
  destruct rest as [|b rest]; [exfalso; destruct l; [congruence|discriminate Lr]|].
  assert (Hb : In b (f :: l)) by (apply Hi; left; reflexivity). destruct (power_val b (H' b Hb)) as (_ & _ & Pb & _).
  assert (Xb : mw b <= X) by (rewrite XE; apply mws_member; [left; reflexivity|exact Rs]).
  assert (X0 : 0 < X) by lra.
  (* n times the whole is at most 2^36 times what is left *)
  assert (nT : n * mws (f :: l) <= 68719476736 * mw b).
  { apply Rle_trans with (n * (n * (68719476736 * mw b / (n * n)))).
    - apply Rmult_le_compat_l; [lra|]. apply mws_bound. intros r Hr. specialize (Cm r b Hr Hb). rewrite E36 in Cm.
      apply (Rmult_le_reg_l (n * n)); [nra|]. unfold Rdiv. field_simplify; [|nra]. lra.
    - right. field. nra. }
  assert (nA : 4 * X <= 68719476736 * mw a).
  { assert (Xn : n * X <= 68719476736 * mw a).
    { apply Rle_trans with (n * (n * (68719476736 * mw a / (n * n)))).
      - apply Rmult_le_compat_l; [lra|]. apply Rle_trans with (mws (f :: l)); [unfold X; lra|]. apply mws_bound. intros r Hr. specialize (Cm r a Hr Ha). rewrite E36 in Cm.
        apply (Rmult_le_reg_l (n * n)); [nra|]. unfold Rdiv. field_simplify; [|nra]. lra.
      - right. field. nra. }
    pose proof (Cm b a Hb Ha) as Q. rewrite E36 in Q.
    assert (XB : (n - 1) * X <= (n - 1) * ((n - 1) * (68719476736 * mw a / (n * n)))).
    { apply Rmult_le_compat_l; [lra|]. rewrite XE. replace (n - 1) with (INR (length (b :: rest))).
      - apply mws_bound. intros r Hr. specialize (Cm r a (Hi r Hr) Ha). rewrite E36 in Cm. apply (Rmult_le_reg_l (n * n)); [nra|]. unfold Rdiv. field_simplify; [|nra]. lra.
      - unfold n. rewrite Lr, S_INR. ring. }
    (* (n-1) / n^2 <= 1/4 *)
    assert (XC : X <= (n - 1) * (68719476736 * mw a / (n * n))) by (apply (Rmult_le_reg_l (n - 1)); lra).
    assert (Y : 4 * ((n - 1) * (68719476736 * mw a / (n * n))) <= 68719476736 * mw a).
    { replace (4 * ((n - 1) * (68719476736 * mw a / (n * n)))) with ((4 * (n - 1) / (n * n)) * (68719476736 * mw a)) by (field; nra).
      rewrite <- (Rmult_1_l (68719476736 * mw a)) at 2. apply Rmult_le_compat_r; [lra|].
      apply (Rmult_le_reg_r (n * n)); [nra|]. unfold Rdiv. rewrite Rmult_assoc, Rinv_l by nra. nra. }
    lra. }
  assert (En : n * (2 * u) * mws (f :: l) <= / 65536 * X).
  { replace (n * (2 * u) * mws (f :: l)) with (2 * u * (n * mws (f :: l))) by ring. rewrite Uv. lra. }
  fold n in Es. apply Rabs_le_inv in Es. set (I_ := dsub (sum_d f l) (power a)) in *.
  assert (Bd : Rabs (val (sum_d f l) - val (power a)) <= bpow radix2 1023).
  { apply Rle_trans with (bpow radix2 841); [|apply bpow_le; lia]. change 841%Z with (1 + 840)%Z. rewrite bpow_plus. change (bpow radix2 1) with 2.
    rewrite Va. apply Rabs_le. assert (XT : X = mws (f :: l) - mw a) by reflexivity. clearbody X. clear -Es En Ts Pa X0 XT. lra. }
  destruct (dsub_ok _ _ Fs Fa Bd) as [Fi Vi]. destruct (minus_error (sum_d f l) (power a)) as (e & He & Re). apply Rabs_le_inv in He. rewrite Uv in He.
  assert (I0 : X * (1 - / 60000) <= val I_ <= X * (1 + / 60000)).
  { unfold I_. rewrite Vi, Re, Va. assert (D : X * (1 - / 65536) <= val (sum_d f l) - mw a <= X * (1 + / 65536)).
    { assert (XT : X = mws (f :: l) - mw a) by reflexivity. clearbody X. clear -Es En Ts Pa X0 XT. lra. }
   
    set (D0 := val (sum_d f l) - mw a) in *. assert (0 <= D0) by lra. split.
    - apply Rle_trans with (X * (1 - / 65536) * (1 - / 9007199254740992)); [|apply Rmult_le_compat; lra]. nra.
    - apply Rle_trans with (X * (1 + / 65536) * (1 + / 9007199254740992)); [apply Rmult_le_compat; lra|]. nra. }
  set (w := val I_) in *. assert (W0 : 0 < w) by nra.
  set (z := mw a / w). assert (Zw : z * w = mw a) by (unfold z; field; lra). assert (Z0 : 0 < z) by (apply Rdiv_lt_0_compat; lra).
  assert (Zl : / 1000000000000 <= z).
  { apply (Rmult_le_reg_r w); [exact W0|]. rewrite Zw. lra. }
  assert (Zu : z <= 1000000000000000).
  { apply (Rmult_le_reg_r w); [exact W0|]. rewrite Zw. pose proof (Cm a b Ha Hb) as Q. rewrite E36 in Q.
    assert (4 * mw a <= n * n * mw a) by (apply Rmult_le_compat_r; [lra|]; nra). lra. }
  destruct (ddiv_ok (power a) I_ Fa) as [Fq Vq]; [fold w; lra| |].
  - rewrite Va. change (mw a / val I_) with z. apply small_below_max. rewrite Rabs_pos_eq; lra.
  - change (val (power a) / val I_) with (val (power a) / w) in Vq. rewrite Va in Vq. fold z in Vq. pose proof (rnd_pos z Zl) as Rz. rewrite Uv in Rz.
    assert (E14 : bpow radix2 (-14) = / 16384) by reflexivity. change (val q) with (val (ddiv (power a) I_)). rewrite Vq, E14.
    split; [exact X0|]. split; [exact Fq|]. split; [lra|].
    (* z X lies within 1/60000 of mw a *)
    assert (ZX1 : z * X * (1 - / 60000) <= mw a) by (rewrite <- Zw, Rmult_assoc; apply Rmult_le_compat_l; lra).
    assert (ZX2 : mw a <= z * X * (1 + / 60000)) by (rewrite <- Zw, Rmult_assoc; apply Rmult_le_compat_l; lra).
    assert (RX : z * X * (1 - / 9007199254740992) <= rnd z * X <= z * X * (1 + / 9007199254740992)).
    { replace (z * X * (1 - / 9007199254740992)) with (z * (1 - / 9007199254740992) * X) by ring. replace (z * X * (1 + / 9007199254740992)) with (z * (1 + / 9007199254740992) * X) by ring.
      split; apply Rmult_le_compat_r; lra. }
    set (y := z * X) in *. assert (0 < y) by (unfold y; apply Rmult_lt_0_compat; lra). lra.
Qed.
