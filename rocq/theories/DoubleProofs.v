(** * Proofs about the computations in double precision *)

From Coq Require Import ZArith List Bool Reals Lia Lra Psatz.
From Flocq Require Import Core BinarySingleNaN Relative Plus_error.
From Verif Require Import Base ConstellationModel HelpersModel HelpersProps DoubleModel DoubleSpec.
Import ListNotations.

Open Scope R_scope.

Notation val := (@B2R 53 1024).
Definition rnd (x : R) : R := round radix2 (FLT_exp (-1074) 53) ZnearestE x.
Local Instance dprec_inst : Prec_gt_0 53 := dprec.
Local Instance dmax_inst : Prec_lt_emax 53 1024 := dmax.

(** A finite double with the given value. *)
Definition is_double (x : double) (r : R) : Prop := is_finite x = true /\ val x = r.

(** * Rounding *)

Lemma rnd_le : forall x y, x <= y -> rnd x <= rnd y.
Proof. intros. apply round_le; [apply FLT_exp_valid; exact dprec|apply valid_rnd_N|assumption]. Qed.

Lemma rnd_scaled : forall n e, (Z.abs n <= 2 ^ 53)%Z -> (-1074 <= e)%Z -> rnd (IZR n * bpow radix2 e) = IZR n * bpow radix2 e.
Proof.
  intros n e Hn He. apply round_generic; [apply valid_rnd_N|].
  destruct (Z.eq_dec (Z.abs n) (2 ^ 53)) as [E|Ne].
  - assert (IZR n * bpow radix2 e = IZR (Z.sgn n) * bpow radix2 (e + 53)) as ->.
    { rewrite bpow_plus. change (bpow radix2 53) with (IZR (2 ^ 53)). rewrite <- E. rewrite (Rmult_comm (bpow _ _)), <- Rmult_assoc.
      rewrite <- mult_IZR. f_equal. f_equal. destruct n; cbn; lia. }
    apply generic_format_FLT. exists (Float radix2 (Z.sgn n) (e + 53)); [reflexivity| |cbn; lia].
    cbn -[Z.pow]. destruct n; cbn; lia.
  - apply generic_format_FLT. exists (Float radix2 n e); [reflexivity| |cbn; lia]. cbn -[Z.pow]. cbn in *. lia.
Qed.

Lemma rnd_int : forall n, (Z.abs n <= 2 ^ 53)%Z -> rnd (IZR n) = IZR n.
Proof. intros n H. rewrite <- (Rmult_1_r (IZR n)). change 1 with (bpow radix2 0). apply rnd_scaled; lia. Qed.

Lemma rnd_pow : forall e, (-1074 <= e)%Z -> rnd (bpow radix2 e) = bpow radix2 e.
Proof. intros e H. rewrite <- (Rmult_1_l (bpow radix2 e)). apply (rnd_scaled 1); lia. Qed.

Lemma rnd_opp : forall x, rnd (- x) = - rnd x.
Proof. intros. apply round_NE_opp. Qed.

Lemma rnd_bound : forall x e, (-1074 <= e)%Z -> Rabs x <= bpow radix2 e -> Rabs (rnd x) <= bpow radix2 e.
Proof.
  intros x e He H. apply Rabs_le. apply Rabs_le_inv in H. split.
  - rewrite <- (rnd_pow e He) at 1. rewrite <- rnd_opp. apply rnd_le. lra.
  - rewrite <- (rnd_pow e He). apply rnd_le. lra.
Qed.

(** The error of one rounding, relative to a number that is not tiny. *)
Definition u : R := bpow radix2 (-53).
Lemma rnd_rel : forall x, bpow radix2 (-1022) <= Rabs x -> exists e, Rabs e <= u /\ rnd x = x * (1 + e).
Proof.
  intros x H. destruct (relative_error_N_FLT_ex radix2 (-1074) 53 eq_refl (fun x => negb (Z.even x)) x H) as (e & He & Hr).
  exists e. split; [|exact Hr]. replace u with (/ 2 * bpow radix2 (-53 + 1)); [exact He|]. unfold u. rewrite bpow_plus. change (bpow radix2 1) with 2. field.
Qed.

(** ... and in general. *)
Definition eta : R := bpow radix2 (-1075).
Lemma rnd_rel_abs : forall x, exists e d, Rabs e <= u /\ Rabs d <= eta /\ rnd x = x * (1 + e) + d.
Proof.
  intros x. destruct (error_N_FLT radix2 (-1074) 53 eq_refl (fun x => negb (Z.even x)) x) as (e & d & He & Hd & _ & Hr).
  exists e, d. split; [|split; [|exact Hr]].
  - replace u with (/ 2 * bpow radix2 (-53 + 1)); [exact He|]. unfold u. rewrite bpow_plus. change (bpow radix2 1) with 2. field.
  - replace eta with (/ 2 * bpow radix2 (-1074)); [exact Hd|]. unfold eta. change (-1074)%Z with (-1075 + 1)%Z. rewrite bpow_plus. change (bpow radix2 1) with 2. field.
Qed.

(** * The operations *)

Lemma below_max : forall x, Rabs x <= bpow radix2 1023 -> Rlt_bool (Rabs (rnd x)) (bpow radix2 1024) = true.
Proof.
  intros x H. apply Rlt_bool_true. apply Rle_lt_trans with (bpow radix2 1023); [apply rnd_bound; [lia|exact H]|apply bpow_lt; lia].
Qed.

Lemma dadd_ok : forall x y, is_finite x = true -> is_finite y = true -> Rabs (val x + val y) <= bpow radix2 1023 ->
  is_double (dadd x y) (rnd (val x + val y)).
Proof.
  intros x y Fx Fy H. pose proof (@Bplus_correct 53 1024 dprec dmax mode_NE x y Fx Fy) as C.
  change (if Rlt_bool (Rabs (rnd (val x + val y))) (bpow radix2 1024) then val (dadd x y) = rnd (val x + val y) /\ is_finite (dadd x y) = true /\
    Bsign (dadd x y) = match Rcompare (val x + val y) 0 with Eq => Bsign x && Bsign y | Lt => true | Gt => false end
    else B2SF (dadd x y) = binary_overflow 53 1024 mode_NE (Bsign x) /\ Bsign x = Bsign y) in C.
  rewrite below_max in C by exact H. destruct C as (A & B & _). split; assumption.
Qed.

Lemma dsub_ok : forall x y, is_finite x = true -> is_finite y = true -> Rabs (val x - val y) <= bpow radix2 1023 ->
  is_double (dsub x y) (rnd (val x - val y)).
Proof.
  intros x y Fx Fy H. pose proof (@Bminus_correct 53 1024 dprec dmax mode_NE x y Fx Fy) as C.
  change (if Rlt_bool (Rabs (rnd (val x - val y))) (bpow radix2 1024) then val (dsub x y) = rnd (val x - val y) /\ is_finite (dsub x y) = true /\
    Bsign (dsub x y) = match Rcompare (val x - val y) 0 with Eq => Bsign x && negb (Bsign y) | Lt => true | Gt => false end
    else B2SF (dsub x y) = binary_overflow 53 1024 mode_NE (Bsign x) /\ Bsign x = negb (Bsign y)) in C.
  rewrite below_max in C by exact H. destruct C as (A & B & _). split; assumption.
Qed.

Lemma dmul_ok : forall x y, is_finite x = true -> is_finite y = true -> Rabs (val x * val y) <= bpow radix2 1023 ->
  is_double (dmul x y) (rnd (val x * val y)).
Proof.
  intros x y Fx Fy H. pose proof (@Bmult_correct 53 1024 dprec dmax mode_NE x y) as C.
  change (if Rlt_bool (Rabs (rnd (val x * val y))) (bpow radix2 1024) then val (dmul x y) = rnd (val x * val y) /\ is_finite (dmul x y) = is_finite x && is_finite y /\
    (is_nan (dmul x y) = false -> Bsign (dmul x y) = xorb (Bsign x) (Bsign y))
    else B2SF (dmul x y) = binary_overflow 53 1024 mode_NE (xorb (Bsign x) (Bsign y))) in C.
  rewrite below_max in C by exact H. destruct C as (A & B & _). rewrite Fx, Fy in B. split; assumption.
Qed.

Lemma ddiv_ok : forall x y, is_finite x = true -> val y <> 0 -> Rabs (val x / val y) <= bpow radix2 1023 ->
  is_double (ddiv x y) (rnd (val x / val y)).
Proof.
  intros x y Fx Fy H. pose proof (@Bdiv_correct 53 1024 dprec dmax mode_NE x y Fy) as C.
  change (if Rlt_bool (Rabs (rnd (val x / val y))) (bpow radix2 1024) then val (ddiv x y) = rnd (val x / val y) /\ is_finite (ddiv x y) = is_finite x /\
    (is_nan (ddiv x y) = false -> Bsign (ddiv x y) = xorb (Bsign x) (Bsign y))
    else B2SF (ddiv x y) = binary_overflow 53 1024 mode_NE (xorb (Bsign x) (Bsign y))) in C.
  rewrite below_max in C by exact H. destruct C as (A & B & _). rewrite Fx in B. split; assumption.
Qed.

Lemma dnum_ok : forall m e, Rabs (IZR m * bpow radix2 e) <= bpow radix2 1023 -> is_double (dnum m e) (rnd (IZR m * bpow radix2 e)).
Proof.
  intros m e H. pose proof (@binary_normalize_correct 53 1024 dprec dmax mode_NE m e false) as C. cbv zeta in C.
  change (if Rlt_bool (Rabs (rnd (IZR m * bpow radix2 e))) (bpow radix2 1024) then val (dnum m e) = rnd (IZR m * bpow radix2 e) /\ is_finite (dnum m e) = true /\
    Bsign (dnum m e) = match Rcompare (IZR m * bpow radix2 e) 0 with Eq => false | Lt => true | Gt => false end
    else B2SF (dnum m e) = binary_overflow 53 1024 mode_NE (Rlt_bool (IZR m * bpow radix2 e) 0)) in C.
  rewrite below_max in C by exact H. destruct C as (A & B & _). split; assumption.
Qed.

Lemma int_bound : forall n, (Z.abs n <= 2 ^ 53)%Z -> Rabs (IZR n) <= bpow radix2 53.
Proof. intros n H. rewrite <- abs_IZR. change (bpow radix2 53) with (IZR (2 ^ 53)). apply IZR_le. exact H. Qed.

Lemma dint_ok : forall n, (Z.abs n <= 2 ^ 53)%Z -> is_double (dint n) (IZR n).
Proof.
  intros n H. rewrite <- (rnd_int n H). replace (IZR n) with (IZR n * bpow radix2 0) by (cbn; ring). apply dnum_ok.
  change (bpow radix2 0) with 1. rewrite Rmult_1_r. apply Rle_trans with (bpow radix2 53); [apply int_bound; exact H|apply bpow_le; lia].
Qed.

Lemma dceil_ok : forall x, is_finite x = true -> is_double (dceil x) (IZR (Zceil (val x))).
Proof.
  intros x F. destruct (@Bnearbyint_correct 53 1024 dmax mode_UP x) as (A & B & _). split; [exact (eq_trans B F)|].
  etransitivity; [exact A|]. apply round_FIX_IZR.
Qed.
Lemma dround_ok : forall x, is_finite x = true -> is_double (dround x) (IZR (ZnearestA (val x))).
Proof.
  intros x F. destruct (@Bnearbyint_correct 53 1024 dmax mode_NA x) as (A & B & _). split; [exact (eq_trans B F)|].
  etransitivity; [exact A|]. apply round_FIX_IZR.
Qed.
Lemma dtrunc_ok : forall x, dtrunc x = Ztrunc (val x).
Proof. intros x. apply eq_IZR. unfold dtrunc. rewrite (@Btrunc_correct 53 1024 dmax). apply round_FIX_IZR. Qed.

Lemma dunsigned_int : forall bits x n, is_double x (IZR n) ->
  dunsigned bits x = if ((n <? 0) || (2 ^ bits <=? n))%Z%bool then UB else Ok n.
Proof.
  intros bits x n [F V]. unfold dunsigned. rewrite F, dtrunc_ok, V, Ztrunc_IZR. cbn [andb].
  destruct (Z.leb_spec 0 n), (Z.ltb_spec n 0); try lia; destruct (Z.ltb_spec n (2 ^ bits)), (Z.leb_spec (2 ^ bits) n); try lia; reflexivity.
Qed.

(** * LoRa *)

Lemma u_pos : 0 < u.
Proof. apply bpow_gt_0. Qed.
Lemma u_val : u = / 9007199254740992.
Proof. reflexivity. Qed.

Lemma small_below_max : forall x, Rabs x <= 1000000000000000 -> Rabs x <= bpow radix2 1023.
Proof. intros x H. apply Rle_trans with (bpow radix2 53); [|apply bpow_le; lia]. change (bpow radix2 53) with 9007199254740992. lra. Qed.

Lemma not_tiny : forall x, / 1000000000000 <= x -> bpow radix2 (-1022) <= Rabs x.
Proof.
  intros x H. rewrite Rabs_pos_eq by (assert (0 < / 1000000000000) by lra; lra).
  apply Rle_trans with (bpow radix2 (-60)); [apply bpow_le; lia|]. change (bpow radix2 (-60)) with (/ 1152921504606846976). lra.
Qed.

(** One rounding of a positive number of everyday size. *)
Lemma rnd_pos : forall x, / 1000000000000 <= x -> x * (1 - u) <= rnd x <= x * (1 + u).
Proof.
  intros x H. assert (X : 0 < x) by (assert (0 < / 1000000000000) by lra; lra).
  destruct (rnd_rel x (not_tiny x H)) as (e & He & ->). apply Rabs_le_inv in He. split; apply Rmult_le_compat_l; lra.
Qed.

(** The error of rounding a quotient of integers is less than the distance of the quotient to the next integer. *)
Lemma rnd_quotient : forall a b, (0 <= a < 2 ^ 33)%Z -> (1 <= b <= 2 ^ 15)%Z ->
  IZR a / IZR b - / (2 * IZR b) < rnd (IZR a / IZR b) < IZR a / IZR b + / (2 * IZR b).
Proof.
  intros a b Ha Hb. assert (B1 : 1 <= IZR b <= 32768) by (split; apply IZR_le; lia).
  assert (A1 : 0 <= IZR a <= 8589934592) by (split; apply IZR_le; lia).
  assert (I : 0 < / IZR b) by (apply Rinv_0_lt_compat; lra).
  destruct (Z.eq_dec a 0) as [->|Na].
  - unfold Rdiv. rewrite Rmult_0_l. rewrite (rnd_int 0) by lia. rewrite Rinv_mult by lra. lra.
  - assert (A2 : 1 <= IZR a) by (apply IZR_le; lia).
    assert (Q : / 32768 <= IZR a / IZR b).
    { unfold Rdiv. apply Rle_trans with (1 * / IZR b); [rewrite Rmult_1_l; apply Rinv_le; lra|apply Rmult_le_compat_r; lra]. }
    pose proof (rnd_pos (IZR a / IZR b) ltac:(lra)) as P. rewrite u_val in P.
    assert (E : IZR a / IZR b * / 9007199254740992 < / (2 * IZR b)).
    { rewrite Rinv_mult by lra. unfold Rdiv. rewrite Rmult_assoc, (Rmult_comm (/ IZR b)), <- Rmult_assoc. apply Rmult_lt_compat_r; lra. }
    lra.
Qed.

Lemma quotient_format : forall k, (Z.abs k <= 2 ^ 53)%Z -> forall x, (x <= IZR k -> rnd x <= IZR k) /\ (IZR k <= x -> IZR k <= rnd x).
Proof. intros k K x. split; intros H; rewrite <- (rnd_int k K); apply rnd_le; exact H. Qed.

Lemma div_le_IZR : forall a b k, (0 < b)%Z -> (IZR a / IZR b <= IZR k <-> (a <= k * b)%Z).
Proof.
  intros a b k Hb. assert (B : 0 < IZR b) by (apply IZR_lt; lia). split; intros H.
  - apply le_IZR. rewrite mult_IZR. apply Rmult_le_reg_r with (/ IZR b); [apply Rinv_0_lt_compat; lra|].
    replace (IZR k * IZR b * / IZR b) with (IZR k) by (field; lra). exact H.
  - apply Rmult_le_reg_r with (IZR b); [lra|]. replace (IZR a / IZR b * IZR b) with (IZR a) by (field; lra). rewrite <- mult_IZR. apply IZR_le. exact H.
Qed.
Lemma div_ge_IZR : forall a b k, (0 < b)%Z -> (IZR k <= IZR a / IZR b <-> (k * b <= a)%Z).
Proof.
  intros a b k Hb. assert (B : 0 < IZR b) by (apply IZR_lt; lia). split; intros H.
  - apply le_IZR. rewrite mult_IZR. apply Rmult_le_reg_r with (/ IZR b); [apply Rinv_0_lt_compat; lra|].
    replace (IZR k * IZR b * / IZR b) with (IZR k) by (field; lra). exact H.
  - apply Rmult_le_reg_r with (IZR b); [lra|]. replace (IZR a / IZR b * IZR b) with (IZR a) by (field; lra). rewrite <- mult_IZR. apply IZR_le. exact H.
Qed.
(** A quotient that is more than [k] is more by a [b]-th at least. *)
Lemma div_gt_gap : forall a b k, (0 < b)%Z -> (k * b < a)%Z -> IZR k + / IZR b <= IZR a / IZR b.
Proof.
  intros a b k Hb H. assert (B : 0 < IZR b) by (apply IZR_lt; lia).
  replace (IZR k + / IZR b) with (IZR (k * b + 1) / IZR b) by (rewrite plus_IZR, mult_IZR; field; lra).
  apply Rmult_le_compat_r; [left; apply Rinv_0_lt_compat; lra|apply IZR_le; lia].
Qed.
Lemma div_lt_gap : forall a b k, (0 < b)%Z -> (a < k * b)%Z -> IZR a / IZR b <= IZR k - / IZR b.
Proof.
  intros a b k Hb H. assert (B : 0 < IZR b) by (apply IZR_lt; lia).
  replace (IZR k - / IZR b) with (IZR (k * b - 1) / IZR b) by (rewrite minus_IZR, mult_IZR; field; lra).
  apply Rmult_le_compat_r; [left; apply Rinv_0_lt_compat; lra|apply IZR_le; lia].
Qed.

Lemma half_inv : forall b, (1 <= b)%Z -> / (2 * IZR b) < / IZR b /\ 0 < / IZR b.
Proof.
  intros b H. assert (1 <= IZR b) by (apply IZR_le; lia). rewrite Rinv_mult by lra. assert (0 < / IZR b) by (apply Rinv_0_lt_compat; lra). lra.
Qed.

Lemma ceil_rnd : forall a b, (0 <= a < 2 ^ 33)%Z -> (1 <= b <= 2 ^ 15)%Z -> Zceil (rnd (IZR a / IZR b)) = ceil_div a b.
Proof.
  intros a b Ha Hb. destruct (ceil_div_spec a b ltac:(lia)) as [C1 C2]. set (k := ceil_div a b) in *.
  assert (K : (0 <= k <= 2 ^ 33)%Z) by (clearbody k; nia).
  pose proof (rnd_quotient a b Ha Hb) as [Q1 Q2]. destruct (half_inv b ltac:(lia)) as [I1 I2]. apply Zceil_imp. split.
  - pose proof (div_gt_gap a b (k - 1) ltac:(lia) ltac:(lia)). lra.
  - apply (quotient_format k ltac:(lia)). apply div_le_IZR; lia.
Qed.

Lemma floor_rnd : forall a b, (0 <= a < 2 ^ 33)%Z -> (1 <= b <= 2 ^ 15)%Z -> Zfloor (rnd (IZR a / IZR b)) = (a / b)%Z.
Proof.
  intros a b Ha Hb. pose proof (Z.div_mod a b ltac:(lia)) as D. pose proof (Z.mod_pos_bound a b ltac:(lia)) as M. set (k := (a / b)%Z) in *.
  assert (K : (0 <= k <= 2 ^ 33)%Z) by (clearbody k; nia).
  pose proof (rnd_quotient a b Ha Hb) as [Q1 Q2]. destruct (half_inv b ltac:(lia)) as [I1 I2]. apply Zfloor_imp. split.
  - apply (quotient_format k ltac:(lia)). apply div_ge_IZR; lia.
  - pose proof (div_lt_gap a b (k + 1) ltac:(lia) ltac:(lia)). lra.
Qed.

(** The number of symbols is computed exactly. *)
Lemma phy_exact : forall sf cr payload, (7 <= sf <= 12)%Z -> (5 <= cr <= 8)%Z ->
  lora_double_phy sf cr payload = Ok (lora_phy_size sf cr payload) /\ (8 <= lora_phy_size sf cr payload < 2 ^ 31)%Z.
Proof.
  intros sf cr pl Hs Hc. unfold lora_double_phy, lora_phy_size. set (w := (sf - 2 * (if sf <=? 10 then 0 else 1))%Z).
  assert (W : (7 <= w <= 10)%Z) by (unfold w; destruct (Z.leb_spec sf 10); lia). clearbody w. cbv zeta.
  set (a := u32 (44 + 8 * pl - 4 * sf)). assert (A : (0 <= a < 2 ^ 32)%Z) by (apply Z.mod_pos_bound; lia). clearbody a.
  destruct (dint_ok a ltac:(lia)) as [Fa Va], (dint_ok 4 ltac:(lia)) as [F4 V4], (dint_ok w ltac:(lia)) as [Fw Vw],
    (dint_ok cr ltac:(lia)) as [Fc Vc], (dint_ok 8 ltac:(lia)) as [F8 V8].
  assert (A' : 0 <= IZR a <= 4294967296) by (split; apply IZR_le; lia). assert (W' : 7 <= IZR w <= 10) by (split; apply IZR_le; lia).
  assert (B1 : Rabs (IZR a / 4) <= 1000000000000000) by (rewrite Rabs_pos_eq; lra).
  assert (D1 : is_double (ddiv (dint a) (dint 4)) (IZR a / 4)).
  { replace (IZR a / 4) with (rnd (IZR a / 4)).
    - rewrite <- Va, <- V4. apply ddiv_ok; [exact Fa|rewrite V4; lra|rewrite Va, V4; apply small_below_max; exact B1].
    - replace (IZR a / 4) with (IZR a * bpow radix2 (-2)) by (change (bpow radix2 (-2)) with (/ 4); reflexivity). apply rnd_scaled; lia. }
  destruct D1 as [F1 V1].
  assert (Q : IZR a / 4 / IZR w = IZR a / IZR (4 * w)) by (rewrite mult_IZR; field; lra).
  assert (Iw : 0 < / IZR w <= 1) by (split; [apply Rinv_0_lt_compat; lra|rewrite <- Rinv_1; apply Rinv_le; lra]).
  assert (D2 : is_double (ddiv (ddiv (dint a) (dint 4)) (dint w)) (rnd (IZR a / IZR (4 * w)))).
  { rewrite <- Q, <- V1, <- Vw. apply ddiv_ok; [exact F1|rewrite Vw; lra|]. rewrite V1, Vw. apply small_below_max.
    rewrite Rabs_pos_eq; unfold Rdiv; nra. }
  destruct D2 as [F2 V2]. pose proof (dceil_ok _ F2) as D3. rewrite V2, ceil_rnd in D3 by lia. destruct D3 as [F3 V3].
  destruct (ceil_div_spec a (4 * w) ltac:(lia)) as [C1 C2]. set (k := ceil_div a (4 * w)) in *. clearbody k.
  assert (K : (0 <= k <= 154000000)%Z) by nia. assert (CK : (0 <= cr * k <= 1232000000)%Z) by nia.
  assert (D4 : is_double (dmul (dint cr) (dceil (ddiv (ddiv (dint a) (dint 4)) (dint w)))) (IZR (cr * k))).
  { rewrite <- (rnd_int (cr * k)) by lia. rewrite mult_IZR, <- Vc, <- V3. apply dmul_ok; [exact Fc|exact F3|].
    rewrite Vc, V3, <- mult_IZR. apply small_below_max. rewrite <- abs_IZR. apply IZR_le. lia. }
  destruct D4 as [F5 V5]. rewrite (dunsigned_int 32 _ (8 + cr * k)).
  - unfold u32. rewrite (Z.mod_small (8 + cr * k)) by lia. destruct (Z.ltb_spec (8 + cr * k) 0); [lia|].
    destruct (Z.leb_spec (2 ^ 32) (8 + cr * k)); [lia|]. split; [reflexivity|lia].
  - rewrite <- (rnd_int (8 + cr * k)) by lia. rewrite plus_IZR, <- V8, <- V5. apply dadd_ok; [exact F8|exact F5|].
    rewrite V8, V5, <- plus_IZR. apply small_below_max. rewrite <- abs_IZR. apply IZR_le. lia.
Qed.

(** [y] is [x] after at most [n] roundings. *)
Definition near (n : nat) (y x : R) : Prop := (1 - u) ^ n * x <= y <= (1 + u) ^ n * x.

Lemma near_rnd : forall n y x, near n y x -> / 1000000000000 <= y -> near (S n) (rnd y) x.
Proof.
  intros n y x [L H] Y. pose proof (rnd_pos y Y) as [P1 P2]. pose proof u_pos. assert (u < 1) by (rewrite u_val; lra). unfold near. cbn [pow]. split.
  - rewrite Rmult_assoc. apply Rle_trans with (y * (1 - u)); [|exact P1]. rewrite Rmult_comm. apply Rmult_le_compat_r; lra.
  - rewrite Rmult_assoc. apply Rle_trans with (y * (1 + u)); [exact P2|]. rewrite (Rmult_comm y). apply Rmult_le_compat_l; lra.
Qed.
Lemma near_scale : forall n y x c, 0 <= c -> near n y x -> near n (c * y) (c * x).
Proof.
  intros n y x c C [L H]. unfold near.
  replace ((1 - u) ^ n * (c * x)) with (c * ((1 - u) ^ n * x)) by ring. replace ((1 + u) ^ n * (c * x)) with (c * ((1 + u) ^ n * x)) by ring.
  split; apply Rmult_le_compat_l; assumption.
Qed.
Lemma near_div : forall n y x c, 0 < c -> near n y x -> near n (y / c) (x / c).
Proof.
  intros n y x c C H. unfold Rdiv. rewrite !(Rmult_comm _ (/ c)). apply near_scale; [left; apply Rinv_0_lt_compat; exact C|exact H].
Qed.
Lemma near_refl : forall x, near 0 x x.
Proof. intros x. unfold near. cbn [pow]. lra. Qed.
Lemma near_error : forall n y x, (n <= 5)%nat -> 0 <= x -> near n y x -> x * (1 - 6 * u) <= y <= x * (1 + 6 * u).
Proof.
  intros n y x N X [L H]. assert (E : 1 - 6 * u <= (1 - u) ^ n /\ (1 + u) ^ n <= 1 + 6 * u).
  { rewrite u_val. destruct n as [|[|[|[|[|[|n]]]]]]; [..|lia]; cbn [pow]; lra. }
  destruct E as [E1 E2]. split; [apply Rle_trans with (2 := L)|apply Rle_trans with (1 := H)]; rewrite Rmult_comm; [|rewrite (Rmult_comm x)];
    rewrite ?(Rmult_comm x); apply Rmult_le_compat_r; lra.
Qed.
Lemma near_range : forall n y x a b, near n y x -> a <= x <= b -> (n <= 5)%nat -> 0 <= a -> a / 2 <= y <= 2 * b.
Proof.
  intros n y x a b H AB N A. pose proof (near_error n y x N ltac:(lra) H) as E. rewrite u_val in E. lra.
Qed.

(** Bounds of a product and a quotient of positive numbers. *)
Lemma mul_range : forall a b c d x y, a <= x <= b -> c <= y <= d -> 0 <= a -> 0 <= c -> a * c <= x * y <= b * d.
Proof. intros a b c d x y [X1 X2] [Y1 Y2] A C. split; apply Rmult_le_compat; lra. Qed.
Lemma div_range : forall a b c d x y, a <= x <= b -> c <= y <= d -> 0 <= a -> 0 < c -> a * / d <= x / y <= b * / c.
Proof.
  intros a b c d x y X [Y1 Y2] A C. unfold Rdiv. apply mul_range; [exact X| |exact A|].
  - split; apply Rinv_le; lra.
  - left. apply Rinv_0_lt_compat. lra.
Qed.

Lemma symbol_time : forall sf bw, (7 <= sf <= 12)%Z -> (8 <= bw <= 255)%Z -> exists t, is_double (lora_symbol_time sf bw) t /\ / 10000 <= t <= 10.
Proof.
  intros sf bw Hs Hb. unfold lora_symbol_time.
  assert (P : (128 <= 2 ^ sf <= 4096)%Z) by (split; [change 128%Z with (2 ^ 7)%Z|change 4096%Z with (2 ^ 12)%Z]; apply Z.pow_le_mono_r; lia).
  destruct (dint_ok (2 ^ sf) ltac:(lia)) as [Fp Vp], (dint_ok bw ltac:(lia)) as [Fb Vb], (dint_ok 1000 ltac:(lia)) as [Fk Vk].
  assert (P' : 128 <= IZR (2 ^ sf) <= 4096) by (split; apply IZR_le; lia). assert (B' : 8 <= IZR bw <= 255) by (split; apply IZR_le; lia).
  pose proof (div_range 128 4096 8 255 _ _ P' B' ltac:(lra) ltac:(lra)) as Q.
  assert (D1 : is_double (ddiv (dint (2 ^ sf)) (dint bw)) (rnd (IZR (2 ^ sf) / IZR bw))).
  { rewrite <- Vp, <- Vb. apply ddiv_ok; [exact Fp|rewrite Vb; lra|]. rewrite Vp, Vb. apply small_below_max. rewrite Rabs_pos_eq; lra. }
  pose proof (rnd_pos (IZR (2 ^ sf) / IZR bw) ltac:(lra)) as R1. rewrite u_val in R1. set (t0 := rnd (IZR (2 ^ sf) / IZR bw)) in *.
  assert (T0 : / 4 <= t0 <= 1024) by lra. destruct D1 as [F1 V1].
  assert (D2 : is_double (ddiv (ddiv (dint (2 ^ sf)) (dint bw)) (dint 1000)) (rnd (t0 / 1000))).
  { rewrite <- V1, <- Vk. apply ddiv_ok; [exact F1|rewrite Vk; lra|]. rewrite V1, Vk. apply small_below_max. rewrite Rabs_pos_eq; lra. }
  exists (rnd (t0 / 1000)). split; [exact D2|]. pose proof (rnd_pos (t0 / 1000) ltac:(lra)) as R2. rewrite u_val in R2. lra.
Qed.

(** What is rounded to the size of a frame. *)
Lemma size_close : forall sf cr bw pre phy, (7 <= sf <= 12)%Z -> (5 <= cr <= 8)%Z -> (8 <= bw <= 255)%Z -> (0 <= pre < 2 ^ 16)%Z -> (0 <= phy < 2 ^ 31)%Z ->
  exists v, is_double (let t_sym := lora_symbol_time sf bw in
      let toa := dmul t_sym (dadd (dint (u32 (pre + phy))) (dnum 17 (-2))) in
      ddiv (ddiv (ddiv (dmul (dint sf) toa) (dint cr)) t_sym) (dint 2)) v /\
    Rabs (v - IZR (sf * (4 * (pre + phy) + 17)) / IZR (8 * cr)) < / 1000.
Proof.
  intros sf cr bw pre phy Hs Hc Hb Hp Hy. destruct (symbol_time sf bw Hs Hb) as (t & [Ft Vt] & T). cbv zeta.
  unfold u32. rewrite (Z.mod_small (pre + phy)) by lia.
  destruct (dint_ok (pre + phy) ltac:(lia)) as [Fs Vs], (dint_ok sf ltac:(lia)) as [Ff Vf], (dint_ok cr ltac:(lia)) as [Fc Vc], (dint_ok 2 ltac:(lia)) as [F2 V2].
  assert (D17 : is_double (dnum 17 (-2)) (17 / 4)).
  { replace (17 / 4) with (rnd (17 * bpow radix2 (-2))).
    - apply dnum_ok. apply small_below_max. change (bpow radix2 (-2)) with (/ 4). rewrite Rabs_pos_eq; lra.
    - rewrite rnd_scaled by lia. reflexivity. }
  destruct D17 as [F17 V17].
  assert (S' : 0 <= IZR (pre + phy) <= 4294967296) by (split; apply IZR_le; lia).
  set (s := IZR (pre + phy) + 17 / 4).
  assert (Ds : is_double (dadd (dint (pre + phy)) (dnum 17 (-2))) s).
  { replace s with (rnd s).
    - unfold s. rewrite <- Vs, <- V17. apply dadd_ok; [exact Fs|exact F17|]. rewrite Vs, V17. apply small_below_max. rewrite Rabs_pos_eq; lra.
    - replace s with (IZR (4 * (pre + phy) + 17) * bpow radix2 (-2)).
      + apply rnd_scaled; lia.
      + unfold s. rewrite plus_IZR, mult_IZR. change (bpow radix2 (-2)) with (/ 4). field. }
  destruct Ds as [Fs2 Vs2]. assert (S2 : 4 <= s <= 4294967301) by (unfold s; lra). set (sd := dadd (dint (pre + phy)) (dnum 17 (-2))) in *. clearbody sd.
  set (td := lora_symbol_time sf bw) in *. clearbody td.
  assert (Fm' : 7 <= IZR sf <= 12) by (split; apply IZR_le; lia). assert (Cr' : 5 <= IZR cr <= 8) by (split; apply IZR_le; lia).
  (* toa *)
  pose proof (mul_range _ _ _ _ _ _ T S2 ltac:(lra) ltac:(lra)) as X1.
  assert (D1 : is_double (dmul td sd) (rnd (t * s))).
  { rewrite <- Vt, <- Vs2. apply dmul_ok; [exact Ft|exact Fs2|]. rewrite Vt, Vs2. apply small_below_max. rewrite Rabs_pos_eq; lra. }
  pose proof (near_rnd 0 _ _ (near_refl (t * s)) ltac:(lra)) as N1. pose proof (near_range 1 _ _ _ _ N1 X1 ltac:(lia) ltac:(lra)) as Y1.
  set (toa := rnd (t * s)) in *. clearbody toa. destruct D1 as [F1 V1]. set (d1 := dmul td sd) in *. clearbody d1.
  (* sf * toa *)
  pose proof (mul_range _ _ _ _ _ _ Fm' Y1 ltac:(lra) ltac:(lra)) as X2.
  assert (D2 : is_double (dmul (dint sf) d1) (rnd (IZR sf * toa))).
  { rewrite <- Vf, <- V1. apply dmul_ok; [exact Ff|exact F1|]. rewrite Vf, V1. apply small_below_max. rewrite Rabs_pos_eq; lra. }
  pose proof (near_rnd 1 _ _ (near_scale 1 _ _ (IZR sf) ltac:(lra) N1) ltac:(lra)) as N2.
  pose proof (mul_range _ _ _ _ _ _ Fm' X1 ltac:(lra) ltac:(lra)) as Z2.
  pose proof (near_range 2 _ _ _ _ N2 Z2 ltac:(lia) ltac:(lra)) as Y2.
  set (m := rnd (IZR sf * toa)) in *. clearbody m. destruct D2 as [Fd2 Vd2]. set (d2 := dmul (dint sf) d1) in *. clearbody d2.
  (* / cr *)
  pose proof (div_range _ _ _ _ _ _ Y2 Cr' ltac:(lra) ltac:(lra)) as X3.
  assert (D3 : is_double (ddiv d2 (dint cr)) (rnd (m / IZR cr))).
  { rewrite <- Vd2, <- Vc. apply ddiv_ok; [exact Fd2|rewrite Vc; lra|]. rewrite Vd2, Vc. apply small_below_max. rewrite Rabs_pos_eq; lra. }
  pose proof (near_rnd 2 _ _ (near_div 2 _ _ (IZR cr) ltac:(lra) N2) ltac:(lra)) as N3.
  pose proof (div_range _ _ _ _ _ _ Z2 Cr' ltac:(lra) ltac:(lra)) as Z3.
  pose proof (near_range 3 _ _ _ _ N3 Z3 ltac:(lia) ltac:(lra)) as Y3.
  set (q := rnd (m / IZR cr)) in *. clearbody q. destruct D3 as [Fd3 Vd3]. set (d3 := ddiv d2 (dint cr)) in *. clearbody d3.
  (* / t_sym *)
  assert (N4' : near 3 (q / t) (IZR sf * s / IZR cr)).
  { replace (IZR sf * s / IZR cr) with (IZR sf * (t * s) / IZR cr / t) by (field; lra). apply near_div; [lra|exact N3]. }
  pose proof (mul_range _ _ _ _ _ _ Fm' S2 ltac:(lra) ltac:(lra)) as Z4'.
  pose proof (div_range _ _ _ _ _ _ Z4' Cr' ltac:(lra) ltac:(lra)) as Z4.
  pose proof (near_range 3 _ _ _ _ N4' Z4 ltac:(lia) ltac:(lra)) as X4.
  assert (D4 : is_double (ddiv d3 td) (rnd (q / t))).
  { rewrite <- Vd3, <- Vt. apply ddiv_ok; [exact Fd3|rewrite Vt; lra|]. rewrite Vd3, Vt. apply small_below_max. rewrite Rabs_pos_eq; lra. }
  pose proof (near_rnd 3 _ _ N4' ltac:(lra)) as N4. pose proof (near_range 4 _ _ _ _ N4 Z4 ltac:(lia) ltac:(lra)) as Y4.
  set (r := rnd (q / t)) in *. clearbody r. destruct D4 as [Fd4 Vd4]. set (d4 := ddiv d3 td) in *. clearbody d4.
  (* / 2 *)
  assert (D5 : is_double (ddiv d4 (dint 2)) (rnd (r / 2))).
  { rewrite <- Vd4, <- V2. apply ddiv_ok; [exact Fd4|rewrite V2; lra|]. rewrite Vd4, V2. apply small_below_max. rewrite Rabs_pos_eq; lra. }
  pose proof (near_rnd 4 _ _ (near_div 4 _ _ 2 ltac:(lra) N4) ltac:(lra)) as N5.
  exists (rnd (r / 2)). split; [exact D5|].
  replace (IZR (sf * (4 * (pre + phy) + 17)) / IZR (8 * cr)) with (IZR sf * s / IZR cr / 2).
  - set (V := IZR sf * s / IZR cr / 2) in *. assert (V' : 0 <= V <= 25769803806) by (unfold V; lra).
    pose proof (near_error 5 (rnd (r / 2)) V ltac:(lia) ltac:(lra) N5) as E. rewrite u_val in E. apply Rabs_lt. lra.
  - unfold s. repeat (rewrite mult_IZR || rewrite plus_IZR). field. lra.
Qed.

(** The exact quotient lies halfway between two integers. *)
Definition halfway (a b : Z) : Prop := (2 * (a mod b) = b)%Z.

Lemma round_near : forall a b v, (0 <= a)%Z -> (0 < b <= 64)%Z -> Rabs (v - IZR a / IZR b) < / 1000 ->
  ZnearestA v = round_div a b \/ halfway a b /\ (ZnearestA v = round_div a b - 1)%Z.
Proof.
  intros a b v Ha Hb V. assert (B : 1 <= IZR b <= 64) by (split; apply IZR_le; lia).
  unfold round_div, halfway. pose proof (Z.div_mod (2 * a + b) (2 * b) ltac:(lia)) as D. pose proof (Z.mod_pos_bound (2 * a + b) (2 * b) ltac:(lia)) as M.
  set (n := ((2 * a + b) / (2 * b))%Z) in *. set (r := ((2 * a + b) mod (2 * b))%Z) in *. clearbody n r. apply Rabs_lt_inv in V.
  assert (E : IZR a / IZR b = IZR n - / 2 + IZR r / (2 * IZR b)).
  { assert (2 * IZR a + IZR b = 2 * IZR b * IZR n + IZR r) by (rewrite <- !mult_IZR, <- !plus_IZR; f_equal; lia).
    apply Rmult_eq_reg_r with (2 * IZR b); [|lra]. replace (IZR a / IZR b * (2 * IZR b)) with (2 * IZR a) by (field; lra).
    replace ((IZR n - / 2 + IZR r / (2 * IZR b)) * (2 * IZR b)) with (2 * IZR b * IZR n - IZR b + IZR r) by (field; lra). lra. }
  destruct (Z.eq_dec r 0) as [->|Nr].
  - assert (Hw : (2 * (a mod b) = b)%Z).
    { assert (2 * a = b * (2 * n - 1))%Z by lia. assert (Bm : (a = b * (n - 1) + (a - b * (n - 1)))%Z) by ring.
      rewrite <- (Z.mod_unique a b (n - 1) (a - b * (n - 1))); lia. }
    unfold Rdiv in E at 2. rewrite Rmult_0_l in E. pose proof (Znearest_half (Z.leb 0) v) as H. fold (ZnearestA v) in H. apply Rabs_le_inv in H.
    assert (L : (n - 2 < ZnearestA v)%Z) by (apply lt_IZR; rewrite minus_IZR; lra).
    assert (U : (ZnearestA v < n + 1)%Z) by (apply lt_IZR; rewrite plus_IZR; lra).
    destruct (Z.eq_dec (ZnearestA v) n); [left; assumption|right; split; [exact Hw|lia]].
  - left. apply Znearest_imp.
    assert (I : / 128 <= / (2 * IZR b)) by (apply Rinv_le; lra).
    assert (R1 : / (2 * IZR b) <= IZR r / (2 * IZR b) <= 1 - / (2 * IZR b)).
    { assert (Rr : 1 <= IZR r <= 2 * IZR b - 1).
      { split; [apply IZR_le; lia|]. replace (2 * IZR b - 1) with (IZR (2 * b - 1)) by (rewrite minus_IZR, mult_IZR; reflexivity). apply IZR_le. lia. }
      split.
      - unfold Rdiv. rewrite <- (Rmult_1_l (/ (2 * IZR b))) at 1. apply Rmult_le_compat_r; lra.
      - replace (1 - / (2 * IZR b)) with ((2 * IZR b - 1) * / (2 * IZR b)) by (field; lra). apply Rmult_le_compat_r; lra. }
    apply Rabs_lt. lra.
Qed.

Lemma size_double : forall sf cr bw pre hd phy, (7 <= sf <= 12)%Z -> (5 <= cr <= 8)%Z -> (8 <= bw <= 255)%Z -> (0 <= pre < 2 ^ 16)%Z ->
  (0 <= hd < 2 ^ 16)%Z -> (0 <= phy < 2 ^ 31)%Z ->
  let num := (sf * (4 * (pre + phy) + 17))%Z in
  exists n, (n = round_div num (8 * cr) \/ halfway num (8 * cr) /\ n = round_div num (8 * cr) - 1)%Z /\
    lora_double_size sf cr bw pre hd phy = if ((n - hd <? 0) || (2 ^ 32 <=? n - hd))%Z%bool then UB else Ok (n - hd)%Z.
Proof.
  intros sf cr bw pre hd phy Hs Hc Hb Hp Hh Hy num. destruct (size_close sf cr bw pre phy Hs Hc Hb Hp Hy) as (v & [Fv Vv] & C). fold num in C.
  unfold lora_double_size. cbv zeta in *. set (d := ddiv _ (dint 2)) in *. clearbody d.
  assert (Nm : (0 <= num <= 12 * (4 * (2 ^ 32) + 17))%Z) by (unfold num; nia).
  pose proof (round_near num (8 * cr) v ltac:(lia) ltac:(lia) C) as R.
  exists (ZnearestA v). split; [exact R|]. pose proof (dround_ok d Fv) as [Fr Vr]. rewrite Vv in Vr. destruct (dint_ok hd ltac:(lia)) as [Fh Vh].
  pose proof (round_div_near num (8 * cr) ltac:(lia)) as Rn. assert (Nb : (-1 <= ZnearestA v <= 2 ^ 40)%Z) by (destruct R as [->|[_ ->]]; nia).
  apply dunsigned_int. rewrite <- (rnd_int (ZnearestA v - hd)) by lia. rewrite minus_IZR, <- Vr, <- Vh. apply dsub_ok; [exact Fr|exact Fh|].
  rewrite Vr, Vh, <- minus_IZR. apply small_below_max. rewrite <- abs_IZR. apply IZR_le. lia.
Qed.

(** The rate of a link is computed exactly. *)
Lemma link_rate_exact : forall sf cr bw, (7 <= sf <= 12)%Z -> (5 <= cr <= 8)%Z -> lora_double_link_rate sf cr bw = Ok (lora_link_rate sf cr bw).
Proof.
  intros sf cr bw Hs Hc. unfold lora_double_link_rate, lora_link_rate. cbv zeta.
  assert (U1 : u8 sf = sf) by (apply Z.mod_small; lia). assert (U2 : u8 cr = cr) by (apply Z.mod_small; lia). rewrite U1, U2.
  set (b := u8 bw). assert (B : (0 <= b < 256)%Z) by (apply Z.mod_pos_bound; lia). clearbody b. clear U1 U2.
  set (a := (sf * b * 4000)%Z). assert (A : (0 <= a < 2 ^ 24)%Z) by (unfold a; nia). clearbody a.
  assert (P : (128 <= 2 ^ sf <= 4096)%Z) by (split; [change 128%Z with (2 ^ 7)%Z|change 4096%Z with (2 ^ 12)%Z]; apply Z.pow_le_mono_r; lia).
  destruct (dint_ok a ltac:(lia)) as [Fa Va], (dint_ok (2 ^ sf) ltac:(lia)) as [Fp Vp], (dint_ok cr ltac:(lia)) as [Fc Vc].
  assert (A' : 0 <= IZR a <= 16777216) by (split; apply IZR_le; lia). assert (P' : 128 <= IZR (2 ^ sf) <= 4096) by (split; apply IZR_le; lia).
  assert (C' : 5 <= IZR cr <= 8) by (split; apply IZR_le; lia).
  pose proof (div_range _ _ _ _ _ _ A' P' ltac:(lra) ltac:(lra)) as Q1.
  assert (D1 : is_double (ddiv (dint a) (dint (2 ^ sf))) (IZR a / IZR (2 ^ sf))).
  { replace (IZR a / IZR (2 ^ sf)) with (rnd (IZR a / IZR (2 ^ sf))).
    - rewrite <- Va, <- Vp. apply ddiv_ok; [exact Fa|rewrite Vp; lra|]. rewrite Va, Vp. apply small_below_max. rewrite Rabs_pos_eq; lra.
    - replace (IZR a / IZR (2 ^ sf)) with (IZR a * bpow radix2 (- sf)); [apply rnd_scaled; lia|].
      unfold Rdiv. f_equal. rewrite bpow_opp, <- IZR_Zpower by lia. reflexivity. }
  destruct D1 as [F1 V1]. pose proof (div_range _ _ _ _ _ _ Q1 C' ltac:(lra) ltac:(lra)) as Q2.
  assert (E : IZR a / IZR (2 ^ sf) / IZR cr = IZR a / IZR (2 ^ sf * cr)) by (rewrite mult_IZR; field; lra).
  assert (D2 : is_double (ddiv (ddiv (dint a) (dint (2 ^ sf))) (dint cr)) (rnd (IZR a / IZR (2 ^ sf * cr)))).
  { rewrite <- E, <- V1, <- Vc. apply ddiv_ok; [exact F1|rewrite Vc; lra|]. rewrite V1, Vc. apply small_below_max. rewrite Rabs_pos_eq; lra. }
  destruct D2 as [F2 V2]. unfold dunsigned. rewrite F2, dtrunc_ok, V2.
  assert (Pos : 0 <= rnd (IZR a / IZR (2 ^ sf * cr))). { apply (quotient_format 0 ltac:(lia)). rewrite <- E. lra. }
  rewrite Ztrunc_floor by exact Pos. rewrite floor_rnd by nia. cbn [andb].
  assert (K : (0 <= a / (2 ^ sf * cr) < 2 ^ 24)%Z).
  { split; [apply Z.div_pos; nia|]. apply Z.div_lt_upper_bound; nia. }
  destruct (Z.leb_spec 0 (a / (2 ^ sf * cr))); [|lia]. destruct (Z.ltb_spec (a / (2 ^ sf * cr)) (2 ^ 64)); [reflexivity|lia].
Qed.

(** * Sums and comparisons *)

Lemma rnd_plus : forall x y : double, exists e, Rabs e <= u /\ rnd (val x + val y) = (val x + val y) * (1 + e).
Proof.
  intros x y.
  destruct (FLT_plus_error_N_ex radix2 (-1074) 53 (fun x => negb (Z.even x)) (val x) (val y)
    (generic_format_B2R 53 1024 x) (generic_format_B2R 53 1024 y)) as (e & He & Hr).
  exists e. split; [|exact Hr]. apply Rle_trans with (1 := He). assert (U : u_ro radix2 53 = u).
  { unfold u_ro, u. change (-53)%Z with (-1 + (-53 + 1))%Z. rewrite (bpow_plus radix2 (-1)). reflexivity. }
  rewrite U. pose proof u_pos. replace u with (u * / 1) at 3 by field. unfold Rdiv. apply Rmult_le_compat_l; [lra|]. apply Rinv_le; lra.
Qed.

Lemma dlt_ok : forall x y : double, is_finite x = true -> is_finite y = true -> (dlt x y = true <-> val x < val y).
Proof.
  intros x y Fx Fy. unfold dlt. rewrite (Bltb_correct 53 1024 x y Fx Fy). destruct (Rlt_bool_spec (val x) (val y)); split; intros; try reflexivity; try discriminate; lra.
Qed.
Lemma dle_ok : forall x y : double, is_finite x = true -> is_finite y = true -> (dle x y = true <-> val x <= val y).
Proof.
  intros x y Fx Fy. unfold dle. rewrite (Bleb_correct 53 1024 x y Fx Fy). destruct (Rle_bool_spec (val x) (val y)); split; intros; try reflexivity; try discriminate; lra.
Qed.

Lemma eta_small : 0 < eta <= u.
Proof. split; [apply bpow_gt_0|]. unfold eta, u. apply bpow_le. lia. Qed.

Lemma double_self : forall x : double, rnd (val x) = val x.
Proof. intros x. apply round_generic; [apply valid_rnd_N|]. apply (generic_format_B2R 53 1024 x). Qed.
