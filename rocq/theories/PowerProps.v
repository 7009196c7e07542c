(** * C115–C116: Aloha with powers in double precision *)
From Coq Require Import ZArith List Lia Bool Reals Lra Permutation Sorting.Sorted.
From Flocq Require Import Core BinarySingleNaN.
From Verif Require Import Base RxModel RxSpec RxProofs AlohaModel AlohaSpec AlohaProofs AlohaProps DoubleModel DoubleSpec DoubleProofs PowerModel PowerSpec PowerProofs.
Import ListNotations.
Open Scope Z_scope.

(** For every schedule, ties included: nothing fails, the same frames end in the same order as with exact powers, and each is
    judged by the rounded sum over its stretch. *)
Theorem power_judged : forall low g ops o, rx_run (aloha_d_mac low) (rx_init (ad_init g)) ops = Some o -> separate [] ops ->
  exists d, o = Ok d /\ map fst (st_log d) = map (fun e => fst (fst e)) (stretches [] None [] ops) /\
    Forall2 (judged_double low) (stretches [] None [] ops) (map snd (st_log d)).
Proof.
  intros low g ops o R Se.
  assert (T : exists d, o = Ok d).
  { clear Se. revert R. generalize (rx_init (ad_init g)). induction ops as [|x ops IH]; intros s R; cbn [rx_run] in R; [inversion R; eauto|].
    destruct x; cbn [rx_step] in R; [destruct (_ && _); [eauto|discriminate]|]. destruct (st_pending s); [discriminate|]. cbn in R. eauto. }
  destruct T as (d & ->). exists d. split; [reflexivity|].
  destruct (double_stretches low ops (rx_init (ad_init g)) d (rx_init (aloha_init 0)) None []) as (new & L1 & L2 & L3); auto.
  - unfold alike. cbn. auto 10.
  - constructor.
  - constructor.
  - cbn. auto.
  - intros X. exfalso. apply X. reflexivity.
  - cbn in L1. subst new. split; assumption.
Qed.
Print Assumptions power_judged.

Lemma crowd_of : forall ops pending first joined, (pending <> [] -> first <> None) ->
  forall e, In e (stretches pending first joined ops) -> exists f, snd (fst e) = Some f.
Proof.
  induction ops as [|o ops IH]; intros pending first joined H e He; [contradiction|]. destruct o as [t u x p|]; cbn [stretches] in He.
  - destruct pending as [|q l]; [apply (IH _ _ _) in He; auto; discriminate|]. apply (IH _ _ _) in He; auto. intros _. apply H. discriminate.
  - destruct pending as [|a rest]; [contradiction|]. destruct He as [<-|He].
    + cbn [fst snd]. destruct first as [f|]; [eauto|]. exfalso. apply H; [discriminate|reflexivity].
    + apply (IH _ _ _) in He; auto. intros _. apply H. discriminate.
Qed.

Section Entries.
Variable ops : list rx_op.
Hypothesis Ff : finish_first [] ops.
Hypothesis Po : Forall sound_power (receptions ops).

Lemma entry_of : forall e, In e (stretches [] None [] ops) -> exists a f joined, e = (a, Some f, joined) /\ In a (f :: joined) /\ Forall sound_power (f :: joined).
Proof.
  intros ((a & first) & joined) He. destruct (crowd_of ops [] None [] ltac:(congruence) _ He) as (f & Ef). cbn [fst snd] in Ef. subst first.
  exists a, f, joined. split; [reflexivity|]. split.
  - apply (counted ops [] None [] ltac:(congruence) Ff _ He).
  - rewrite Forall_forall in *. intros r Hr. apply Po.
    apply (crowd_received ops [] None [] (receptions ops) ltac:(discriminate) ltac:(intros ? []) ltac:(apply incl_refl) _ He). exact Hr.
Qed.
End Entries.

Open Scope R_scope.
Lemma length_bound : forall (l : list reception) k, (Z.of_nat (length l) <= 2 ^ Z.pos k)%Z -> INR (length l) <= bpow radix2 (Z.pos k).
Proof.
  intros l k H. rewrite INR_IZR_INZ. apply IZR_le in H. change (bpow radix2 (Z.pos k)) with (IZR (Zpower_pos 2 k)). exact H.
Qed.

Lemma weak_mw : forall a f joined, (Z.of_nat (length (f :: joined)) * rx_pow a < 2 ^ 50 * (AlohaSpec.total (f :: joined) - rx_pow a))%Z ->
  INR (length (f :: joined)) * mw a < bpow radix2 50 * (mws (f :: joined) - mw a).
Proof.
  intros a f joined H. apply IZR_lt in H. rewrite !mult_IZR, minus_IZR in H. rewrite <- INR_IZR_INZ in H.
  unfold mws, mw. assert (E : bpow radix2 50 = IZR (2 ^ 50)) by reflexivity. rewrite E.
  replace (INR (length (f :: joined)) * (IZR (rx_pow a) * unit_)) with (INR (length (f :: joined)) * IZR (rx_pow a) * unit_) by ring.
  replace (IZR (2 ^ 50) * (IZR (AlohaSpec.total (f :: joined)) * unit_ - IZR (rx_pow a) * unit_)) with (IZR (2 ^ 50) * (IZR (AlohaSpec.total (f :: joined)) - IZR (rx_pow a)) * unit_) by ring.
  apply Rmult_lt_compat_r; [apply unit_pos|exact H].
Qed.
Open Scope Z_scope.

Lemma forall2_in : forall (A B : Type) (P Q : A -> B -> Prop) l m, Forall2 P l m -> (forall a b, In a l -> P a b -> Q a b) -> Forall2 Q l m.
Proof.
  intros A B P Q l m H. induction H as [|a b l m H0 H IH]; intros Im; constructor; [apply Im; [left; reflexivity|exact H0]|].
  apply IH. intros x y Hx. apply Im. right. exact Hx.
Qed.
Lemma forall2_same : forall (A B : Type) (P Q : A -> B -> Prop) l m n, Forall2 P l m -> Forall2 Q l n -> (forall a x y, In a l -> P a x -> Q a y -> x = y) -> m = n.
Proof.
  intros A B P Q l m n H. revert n. induction H as [|a b l m H0 H IH]; intros n J Im; inversion J; subst; [reflexivity|]. f_equal.
  - apply (Im a); auto. left; reflexivity.
  - apply IH; [assumption|]. intros a1 b1 c1 Hx. apply Im. right; exact Hx.
Qed.
Lemma same_log : forall (l m : list (reception * list Z)), map fst l = map fst m -> map snd l = map snd m -> l = m.
Proof.
  induction l as [|[x y] l IH]; intros [|[v w] m]; cbn; intros L M; try discriminate; [reflexivity|].
  injection M as -> M. injection L as -> L. f_equal. apply IH; assumption.
Qed.

(** The default threshold, which is to let no collided frame through.  A frame that meets none is passed up.  One that has met
    others is lost, unless in a stretch of [n] frames the others together are less than [n/2^50] times as strong. *)
Theorem power_default_partial : forall g ops d, rx_run (aloha_d_mac low_max) (rx_init (ad_init g)) ops = Some (Ok d) ->
  separate [] ops -> finish_first [] ops -> Forall sound_power (receptions ops) ->
  Forall2 (fun e up => Z.of_nat (length (crowd e)) <= 2 ^ 40 ->
      snd e = [] /\ up = [rx_uid (fst (fst e))] \/ snd e <> [] /\ up = [] \/
      snd e <> [] /\ up = [rx_uid (fst (fst e))] /\ 2 ^ 50 * against e <= Z.of_nat (length (crowd e)) * rx_pow (fst (fst e)))
    (stretches [] None [] ops) (map snd (st_log d)).
Proof.
  intros g ops d R Se Ff Po. destruct (power_judged _ _ _ _ R Se) as (d' & E & _ & J). injection E as <-.
  eapply forall2_in; [exact J|]. intros e up He Je Hn.
  destruct (entry_of ops Ff Po e He) as (a & f & joined & -> & Ha & Hs). unfold against, crowd in *. cbn [fst snd] in *.
  destruct Je as (f' & Ef & Je). injection Ef as <-. destruct Je as [[[Hj|Hl] ->]|[[Hj _] ->]]; [left; auto| |right; left; auto].
  destruct joined as [|j joined]; [left; auto|]. right. right. split; [discriminate|]. split; [reflexivity|].
  apply Z.nlt_ge. intros W. rewrite (default_low f (j :: joined) a) in Hl; [discriminate|exact Hs| |exact Ha|apply weak_mw; exact W].
  apply length_bound. exact Hn.
Qed.
Print Assumptions power_default_partial.

(** So it is as with exact powers, where all of C25 holds, if no frame is that much stronger than what it meets. *)
Theorem power_default_same : forall g gd ops s d, rx_run (aloha_mac no_capture) (rx_init (aloha_init g)) ops = Some (Ok s) ->
  rx_run (aloha_d_mac low_max) (rx_init (ad_init gd)) ops = Some (Ok d) ->
  sane ops -> separate [] ops -> finish_first [] ops -> Forall sound_power (receptions ops) ->
  (forall e, In e (stretches [] None [] ops) -> Z.of_nat (length (crowd e)) <= 2 ^ 40 /\
     (snd e <> [] -> Z.of_nat (length (crowd e)) * rx_pow (fst (fst e)) < 2 ^ 50 * against e)) ->
  st_log d = st_log s.
Proof.
  intros g gd ops s d Rs Rd Sa Se Ff Po Hc.
  destruct (aloha_any_schedule _ _ _ _ Rs Sa Se) as (s' & E & L1 & J1). injection E as <-.
  destruct (power_judged _ _ _ _ Rd Se) as (d' & E & L2 & _). injection E as <-.
  pose proof (power_default_partial _ _ _ Rd Se Ff Po) as J2.
  apply same_log; [congruence|]. apply (forall2_same _ _ _ _ _ _ _ J2 J1). intros e x y He H2 H1.
  destruct (Hc e He) as (Hn & Hw). specialize (H2 Hn). destruct (entry_of ops Ff Po e He) as (a & f & joined & -> & Ha & Hs).
  destruct H1 as (f' & Ef & H1). injection Ef as <-. unfold against, crowd in *. cbn [fst snd] in *.
  rewrite Forall_forall in Hs. destruct (Hs a Ha) as ((Pa & _) & _). change (AlohaSpec.total (f :: joined)) with (rx_pow f + AlohaSpec.total joined) in *.
  destruct H2 as [[-> ->]|[[Hj ->]|[Hj [-> W]]]].
  - destruct H1 as [[_ ->]|[[X _] _]]; [reflexivity|congruence].
  - destruct H1 as [[[X|X] _]|[_ ->]]; [congruence| |reflexivity]. exfalso. apply Z.ltb_ge in X. specialize (Hw Hj).
    assert (0 <= Z.of_nat (length (f :: joined)) * rx_pow a) by lia. cbn [length] in *. lia.
  - exfalso. specialize (Hw Hj). lia.
Qed.
Print Assumptions power_default_same.

(** Sound powers, in a way that can be computed. *)
Lemma sound_dec : forall u t e m k, 0 < m <= 2 ^ 53 -> 0 <= k <= 1820 -> sound_power (mkRx u t e (m * 2 ^ k)).
Proof.
  intros u t e m k Hm Hk. split; cbn [rx_pow].
  - assert (0 < 2 ^ k) by (apply Z.pow_pos_nonneg; lia). split; [apply Z.mul_pos_pos; lia|].
    apply Z.le_trans with (2 ^ 53 * 2 ^ 1820); [|vm_compute; discriminate]. apply Z.mul_le_mono_nonneg; try lia. apply Z.pow_le_mono_r; lia.
  - exists (dnum m (k - 1074)). assert (Q : (IZR (m * 2 ^ k) * bpow radix2 (-1074))%R = (IZR m * bpow radix2 (k - 1074))%R).
    { rewrite mult_IZR. change 2 with (radix_val radix2) at 1. rewrite IZR_Zpower by lia. rewrite Rmult_assoc, <- bpow_plus. reflexivity. }
    rewrite Q. rewrite <- (rnd_scaled m (k - 1074)) by lia. apply dnum_ok.
    rewrite Rabs_mult, (Rabs_pos_eq (bpow _ _)) by apply bpow_ge_0. apply Rle_trans with (bpow radix2 53 * bpow radix2 746)%R.
    + apply Rmult_le_compat; [apply Rabs_pos|apply bpow_ge_0|apply int_bound; lia|apply bpow_le; lia].
    + rewrite <- bpow_plus. apply bpow_le. lia.
Qed.

(** 160 dB apart, as when a loss model answers -1000 dBm beyond its range: two frames that overlap, and the stronger is passed
    up although with exact powers none is. *)
Theorem power_default_refuted : exists ops (s : rx_state aloha) (d : rx_state aloha_d),
  rx_run (aloha_mac no_capture) (rx_init (aloha_init 0)) ops = Some (Ok s) /\ rx_run (aloha_d_mac low_max) (rx_init (ad_init (dint 0))) ops = Some (Ok d) /\
  sane ops /\ separate [] ops /\ finish_first [] ops /\ Forall sound_power (receptions ops) /\
  map snd (st_log s) = [[]; []] /\ map snd (st_log d) = [[1]; []].
Proof.
  exists [OStart 0 1 10 (1 * 2 ^ 1074); OStart 5 2 10 (1 * 2 ^ 1020); OFinish; OFinish]. eexists. eexists.
  split; [vm_compute; reflexivity|]. split; [vm_compute; reflexivity|].
  split; [repeat constructor; cbn; lia|]. split; [repeat constructor; cbn; lia|]. split; [repeat constructor; cbn; lia|].
  split; [|split; reflexivity]. repeat constructor; apply sound_dec; lia.
Qed.
Print Assumptions power_default_refuted.

(** ** Thresholds *)

Open Scope R_scope.
Lemma near_threshold : forall t low below a f joined, 0 < t -> tells t low -> rule t below -> Forall sound_power (f :: joined) -> comparable (f :: joined) ->
  In a (f :: joined) -> joined <> [] -> clear t (rx_pow a) (AlohaSpec.total (f :: joined) - rx_pow a) ->
  low (ddiv (power a) (dsub (sum_d f joined) (power a))) = below (rx_pow a) (AlohaSpec.total (f :: joined) - rx_pow a)%Z.
Proof.
  intros t low below a f joined Ht Tl Ru Hs Hc Ha Hj Cl. destruct (ratio_close f joined a Hs Hc Ha Hj) as (X0 & Fq & Q0 & Q1).
  set (q := ddiv (power a) (dsub (sum_d f joined) (power a))) in *. destruct (Tl q Fq Q0) as (T1 & T2). change (real_of q) with (val q) in *.
  set (i := (AlohaSpec.total (f :: joined) - rx_pow a)%Z) in *.
  assert (XE : mws (f :: joined) - mw a = IZR i * unit_) by (unfold i, mws, mw; rewrite minus_IZR; ring). rewrite XE in *.
  pose proof unit_pos as U0. assert (I0 : 0 < IZR i) by (apply (Rmult_lt_reg_r unit_); [exact U0|lra]).
  unfold mw in Q1. set (p := IZR (rx_pow a)) in *. assert (E14 : bpow radix2 (-14) = / 16384) by reflexivity. assert (E10 : bpow radix2 (-10) = / 1024) by reflexivity.
  assert (E20 : bpow radix2 (-20) = / 1048576) by reflexivity. unfold clear in Cl. fold p in Cl. rewrite E10 in Cl. rewrite E20 in *. rewrite E14 in Q1.
  assert (Q2 : p * (1 - / 16384) <= val q * IZR i <= p * (1 + / 16384)).
  { destruct Q1 as (A & B). split; apply (Rmult_le_reg_r unit_ _ _ U0); lra. }
  destruct Cl as [C|C].
  - rewrite T1.
    + symmetry. apply Ru. fold p. assert (0 < t * IZR i) by (apply Rmult_lt_0_compat; assumption). lra.
    + apply (Rmult_le_reg_r (IZR i)); [exact I0|]. assert (0 < t * IZR i) by (apply Rmult_lt_0_compat; assumption). lra.
  - rewrite T2.
    + symmetry. destruct (below (rx_pow a) i) eqn:B; [|reflexivity]. apply Ru in B. fold p in B. exfalso. assert (0 < t * IZR i) by (apply Rmult_lt_0_compat; assumption). lra.
    + apply (Rmult_le_reg_r (IZR i)); [exact I0|]. assert (0 < t * IZR i) by (apply Rmult_lt_0_compat; assumption). lra.
Qed.
Open Scope Z_scope.

(** With a threshold that corresponds to the ratio [t]: if the frames of each stretch are comparable, and each is clearly above
    or clearly below the threshold, then the same frames are passed up as with exact powers. *)
Theorem power_threshold : forall t low below g gd ops s d, (0 < t)%R -> tells t low -> rule t below ->
  rx_run (aloha_mac below) (rx_init (aloha_init g)) ops = Some (Ok s) -> rx_run (aloha_d_mac low) (rx_init (ad_init gd)) ops = Some (Ok d) ->
  sane ops -> separate [] ops -> finish_first [] ops -> Forall sound_power (receptions ops) ->
  (forall e, In e (stretches [] None [] ops) -> snd e <> [] -> comparable (crowd e) /\ clear t (rx_pow (fst (fst e))) (against e)) ->
  st_log d = st_log s.
Proof.
  intros t low below g gd ops s d Ht Tl Ru Rs Rd Sa Se Ff Po Hc.
  destruct (aloha_any_schedule _ _ _ _ Rs Sa Se) as (s' & E & L1 & J1). injection E as <-.
  destruct (power_judged _ _ _ _ Rd Se) as (d' & E & L2 & J2). injection E as <-.
  apply same_log; [congruence|]. apply (forall2_same _ _ _ _ _ _ _ J2 J1). intros e x y He H2 H1.
  specialize (Hc e He). destruct (entry_of ops Ff Po e He) as (a & f & joined & -> & Ha & Hs).
  destruct H1 as (f' & Ef & H1). injection Ef as <-. destruct H2 as (f' & Ef & H2). injection Ef as <-. unfold against, crowd in *. cbn [fst snd] in *.
  destruct joined as [|j joined].
  - destruct H1 as [[_ ->]|[[X _] _]]; [|congruence]. destruct H2 as [[_ ->]|[[X _] _]]; [reflexivity|congruence].
  - destruct (Hc ltac:(discriminate)) as (C1 & C2).
    pose proof (near_threshold t low below a f (j :: joined) Ht Tl Ru Hs C1 Ha ltac:(discriminate) C2) as D.
    change (AlohaSpec.total (f :: j :: joined)) with (rx_pow f + AlohaSpec.total (j :: joined)) in D. rewrite D in H2.
    destruct H1 as [[[X|X] ->]|[[_ X] ->]], H2 as [[[Y|Y] ->]|[[_ Y] ->]]; try congruence; reflexivity.
Qed.
Print Assumptions power_threshold.

(** A threshold of 3 dB, or a ratio of two: frame 2 stands out against 1 but not 3 against 2; in double precision as well. *)
Definition two_d (q : double) : bool := dlt q (dint 2).
Lemma two_tells : tells 2 two_d.
Proof.
  intros q F P. destruct (dint_ok 2 ltac:(lia)) as [F2 V2]. assert (E : bpow radix2 (-20) = (/ 1048576)%R) by reflexivity. rewrite E. change (real_of q) with (val q). split; intros H.
  - apply dlt_ok; [exact F|exact F2|]. rewrite V2. lra.
  - destruct (two_d q) eqn:D; [|reflexivity]. apply dlt_ok in D; [|exact F|exact F2]. rewrite V2 in D. lra.
Qed.
Lemma twice_rule : rule 2 twice.
Proof. intros p i. unfold twice. rewrite Z.ltb_lt, <- mult_IZR. split; [apply IZR_lt|apply lt_IZR]. Qed.

Example power_threshold_case :
  let mw := 2 ^ 1074 in let ops := [OStart 0 1 10 (1 * mw); OStart 5 2 10 (4 * mw); OFinish; OStart 12 3 8 (1 * 2 ^ 1073); OFinish; OFinish] in
  Forall sound_power (receptions ops) /\ finish_first [] ops /\
  (forall e, In e (stretches [] None [] ops) -> snd e <> [] -> comparable (crowd e) /\ clear 2 (rx_pow (fst (fst e))) (against e)) /\
  match rx_run (aloha_d_mac two_d) (rx_init (ad_init (dint 0))) ops with
  | Some (Ok d) => map snd (st_log d) = [[]; [2]; []] | _ => False end.
Proof.
  cbv zeta. split; [repeat constructor; apply sound_dec; lia|]. split; [repeat constructor; cbn; lia|]. split; [|vm_compute; reflexivity].
  intros e He _. assert (C : forall l, forallb (fun a => forallb (fun b => Z.of_nat (length l) * Z.of_nat (length l) * rx_pow a <=? 2 ^ 36 * rx_pow b) l) l = true -> comparable l).
  { intros l H a b Ha Hb. rewrite forallb_forall in H. specialize (H a Ha). rewrite forallb_forall in H. apply Z.leb_le. exact (H b Hb). }
  assert (E : bpow radix2 (-10) = (/ 1024)%R) by reflexivity.
  assert (D : forall p i, 2 * 1023 * i <? 1024 * p = false \/ 2 * 1025 * i <=? 1024 * p = true -> clear 2 p i).
  { intros p i [H|H]; [left|right]; rewrite E.
    - apply Z.ltb_ge in H. apply IZR_le in H. rewrite !mult_IZR in H. lra.
    - apply Z.leb_le in H. apply IZR_le in H. rewrite !mult_IZR in H. lra. }
  vm_compute in He. destruct He as [<-|[<-|[<-|[]]]]; (split; [apply C; vm_compute; reflexivity|apply D; vm_compute; auto]).
Qed.
