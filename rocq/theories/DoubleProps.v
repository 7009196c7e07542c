(** * The computations in double precision: theorems *)

From Coq Require Import ZArith List Bool Reals Lia Lra Psatz.
From Flocq Require Import Core BinarySingleNaN.
From Verif Require Import Base ConstellationModel HelpersModel HelpersProps DoubleModel DoubleSpec DoubleProofs DoubleReplicaProofs DoubleDistanceProofs.
Import ListNotations.
Open Scope Z_scope.

(** * LoRa frames *)

(** With [phy] symbols the size of the frame lies exactly between [n] and [n + 1] bytes. *)
Definition between_sizes (sf cr preamble phy n : Z) : Prop := 2 * (sf * (4 * (preamble + phy) + 17)) = (2 * n + 1) * (8 * cr).

Lemma halfway_between : forall a b, 0 < b -> halfway a b -> 2 * a = (2 * (round_div a b - 1) + 1) * b.
Proof.
  intros a b B H. unfold halfway in H. pose proof (Z.div_mod a b ltac:(lia)) as D. set (q := a / b) in *. set (r := a mod b) in *. clearbody q r.
  unfold round_div. replace (2 * a + b) with ((q + 1) * (2 * b)) by lia. rewrite Z.div_mul by lia. lia.
Qed.

(** Whatever the arguments, the constructor gives in double precision what it would give with exact numbers, except that
    a size halfway between two may come out as the smaller of them instead of the larger. *)
Theorem lora_double_exact : forall sf cr bandwidth preamble header payload,
  lora_double sf cr bandwidth preamble header payload = lora_new sf cr bandwidth preamble header payload \/
  exists l, lora_new sf cr bandwidth preamble header payload = Ok l /\ between_sizes (u8 sf) (u8 cr) (u16 preamble) (lr_phy_size l) (lr_payload l + u16 header - 1) /\
    lora_double sf cr bandwidth preamble header payload = if lr_payload l =? 0 then UB else Ok (mkLora (lr_phy_size l) (lr_payload l - 1)).
Proof.
  intros sf cr bw pre hd pl. unfold lora_double, lora_new. cbv zeta.
  assert (R8 : forall x, 0 <= u8 x < 256) by (intros; apply Z.mod_pos_bound; lia). assert (R16 : forall x, 0 <= u16 x < 2 ^ 16) by (intros; apply Z.mod_pos_bound; lia).
  generalize (R8 sf) (R8 cr) (R8 bw) (R16 pre) (R16 hd). generalize (u8 sf) (u8 cr) (u8 bw) (u16 pre) (u16 hd) (u32 pl). clear.
  intros sf cr bw pre hd pl Hs Hc Hb Hp Hh.
  destruct (Z.leb_spec 7 sf), (Z.leb_spec sf 12); cbn [andb assert_ rbind]; try (left; reflexivity).
  destruct (Z.leb_spec 5 cr), (Z.leb_spec cr 8); cbn [andb assert_ rbind]; try (left; reflexivity).
  destruct (Z.leb_spec 8 bw), (Z.leb_spec bw 500); cbn [andb assert_ rbind]; try (left; reflexivity).
  destruct (Z.leb_spec 6 pre), (Z.leb_spec pre 65532); cbn [andb assert_ rbind]; try (left; reflexivity).
  destruct (phy_exact sf cr pl ltac:(lia) ltac:(lia)) as [E P]. rewrite E. cbn [rbind]. set (phy := lora_phy_size sf cr pl) in *. clearbody phy.
  destruct (size_double sf cr bw pre hd phy) as (n & N & ->); try lia.
  set (num := sf * (4 * (pre + phy) + 17)) in *. destruct N as [->|[Hw ->]].
  - left. destruct ((_ <? 0) || _)%bool; reflexivity.
  - assert (Nm : 0 <= num <= 12 * (4 * (2 ^ 31 + 2 ^ 16) + 17)) by (unfold num; split; [apply Z.mul_nonneg_nonneg|apply Z.mul_le_mono_nonneg]; lia). pose proof (round_div_near num (8 * cr) ltac:(lia)) as Rn.
    set (N := round_div num (8 * cr)) in *. pose proof (halfway_between num (8 * cr) ltac:(lia) Hw) as Hb2. fold N in Hb2.
    assert (Nb : N < 2 ^ 32).
    { destruct (Z.lt_ge_cases N (2 ^ 32)) as [|G]; [assumption|]. exfalso. pose proof (Z.mul_le_mono_nonneg 40 (8 * cr) (2 ^ 32) N ltac:(lia) ltac:(lia) ltac:(lia) G). lia. }
    clearbody N.
    destruct (Z.ltb_spec (N - hd) 0).
    + left. cbn [orb]. destruct (Z.ltb_spec (N - 1 - hd) 0); [reflexivity|lia].
    + destruct (Z.leb_spec (2 ^ 32) (N - hd)); [lia|]. cbn [orb]. right. eexists. split; [reflexivity|]. cbn [lr_phy_size lr_payload]. split.
      * unfold between_sizes. fold num. replace (N - hd + hd - 1) with (N - 1) by lia. exact Hb2.
      * destruct (Z.eqb_spec (N - hd) 0); destruct (Z.ltb_spec (N - 1 - hd) 0); try lia; cbn [orb]; [reflexivity|].
        destruct (Z.leb_spec (2 ^ 32) (N - 1 - hd)); [lia|]. cbn [rbind]. replace (N - 1 - hd) with (N - hd - 1) by lia. reflexivity.
Qed.
Print Assumptions lora_double_exact.

(** So the frames are right as [lora_partial] says: the size is a nearest number of bytes. *)
Theorem lora_double_partial : forall sf cr bandwidth preamble header payload,
  admissible_lora sf cr bandwidth preamble header payload -> bandwidth < 256 -> (0 < payload \/ sf < 12) ->
  (header + 1) * (8 * cr) <= sf * (4 * (preamble + 8) + 17) ->
  (exists l, lora_double sf cr bandwidth preamble header payload = Ok l /\ lora_right sf cr preamble header payload l) /\
  lora_double_link_rate sf cr bandwidth = Ok (sf * bandwidth * 4000 / (2 ^ sf * cr)).
Proof.
  intros sf cr bw pre hd pl A B P H. destruct (lora_partial sf cr bw pre hd pl A B P H) as ((l & E & R) & Rate).
  split; [|rewrite <- Rate; apply link_rate_exact; destruct A as (? & ? & _); lia].
  destruct (lora_double_exact sf cr bw pre hd pl) as [X|(l' & E' & Hw & X)].
  - exists l. split; [congruence|exact R].
  - rewrite E in E'. injection E' as <-. destruct R as (Sy & Py & Rr). destruct A as (A1 & A2 & A3 & A4 & A5 & A6).
    assert (U8 : forall x, 0 <= x < 256 -> u8 x = x) by (intros; unfold u8; apply Z.mod_small; lia).
    assert (U16 : forall x, 0 <= x < 65536 -> u16 x = x) by (intros; unfold u16; apply Z.mod_small; lia).
    unfold between_sizes in Hw. rewrite !U8, !U16 in Hw by lia. destruct l as [phy size]. cbn [lr_phy_size lr_payload] in *.
    destruct (Z.eqb_spec size 0); [lia|]. exists (mkLora phy (size - 1)). split; [exact X|]. unfold lora_right. cbn [lr_phy_size lr_payload].
    assert (Ph : 8 <= phy) by (destruct Sy as (k & -> & K & _); nia).
    assert (Num : sf * (4 * (pre + 8) + 17) <= sf * (4 * (pre + phy) + 17)) by (apply Z.mul_le_mono_nonneg_l; lia).
    set (num := sf * (4 * (pre + phy) + 17)) in *. clearbody num. split; [exact Sy|]. split; [nia|]. lia.
Qed.
Print Assumptions lora_double_partial.

(** Spreading factor 8, coding rate 6, 125 kHz, a preamble of 8 and a payload of 15: 33.5 bytes, computed as a little less. *)
Theorem lora_double_refuted : ~ (forall sf cr bandwidth preamble header payload, admissible_lora sf cr bandwidth preamble header payload ->
  lora_double sf cr bandwidth preamble header payload = lora_new sf cr bandwidth preamble header payload).
Proof. intros C. specialize (C 8 6 125 8 0 15 ltac:(unfold admissible_lora; lia)). vm_compute in C. discriminate. Qed.
Print Assumptions lora_double_refuted.

(** The usual frame, and the one above: 33 bytes rather than 34. *)
Example lora_double_case : lora_double 7 5 125 8 20 51 = Ok (mkLora 88 50) /\ lora_double 8 6 125 8 0 15 = Ok (mkLora 38 33) /\
  lora_double 8 6 125 8 34 15 = UB /\ lora_double_link_rate 7 5 125 = Ok 5468.
Proof. repeat split; vm_compute; reflexivity. Qed.

(** * Replicas *)

Open Scope R_scope.

Lemma first_zero : forall q, nth 0 q 1 = 0 -> exists q', q = 0 :: q'.
Proof. intros [|x q] H; cbn in H; [lra|]. subst. exists q. reflexivity. Qed.

(** The coefficients being the doubles nearest to a distribution, and the sample not among the last 2^-33 below one (the
    generator of ns-3 has 2^32 - 209 values evenly spaced between zero and one), a number of replicas is always found; it is
    the one whose part of the unit interval the sample falls in, up to 2^-36. *)
Theorem replicas_double_right : forall q cs p, distribution q -> as_doubles cs q -> (Z.of_nat (length cs) <= 2 ^ 15)%Z ->
  is_finite p = true -> 0 <= real_of p <= 1 - / 2 ^ 33 ->
  exists n, replicas_double cs p = Ok (Z.of_nat n) /\ (1 <= n < length cs)%nat /\ 0 < nth n q 0 /\
    below q n - / 2 ^ 36 <= real_of p < below q (n + 1) + / 2 ^ 36.
Proof.
  intros q cs p (Z0 & Pos & Tot) A L Fp Bp. destruct (first_zero q Z0) as (q' & ->). inversion A as [|c x cs' q'' C0 A']; subst.
  unfold replicas_double. cbn [tl length] in *. cbn [total] in Tot. change (real_of p) with (B2R p) in *.
  assert (LI : INR (length cs') <= 32767).
  { rewrite INR_IZR_INZ. apply IZR_le. lia. }
  pose proof (pos_INR (length cs')) as LI0. destruct (dint_ok 0 ltac:(lia)) as [F0 V0]. pose proof u_val as U.
  assert (P33 : / 2 ^ 33 = / 8589934592) by (f_equal; cbn; lra). assert (P36 : / 2 ^ 36 = / 68719476736) by (f_equal; cbn; lra). rewrite P33, P36 in *.
  destruct (loop_inverts cs' q' p (dint 0) 0 1 0 A') as (m & R1 & R2 & R3 & R4); try assumption; try (rewrite ?u_val; lra); try lia.
  - intros y Y. apply Pos. right. exact Y.
  - rewrite V0, Rminus_0_r, Rabs_R0. lra.
  - rewrite u_val in R4. exists (S m). rewrite R1. split; [f_equal; lia|]. split; [lia|]. split; [exact R3|]. unfold below in *. cbn [Nat.add firstn total]. lra.
Qed.
Print Assumptions replicas_double_right.

Definition decimal (n d : Z) : double := ddiv (dint n) (dint d).
Lemma decimal_ok : forall n d, (0 <= n <= 1000)%Z -> (1 <= d <= 1000)%Z -> stands_for (decimal n d) (nearest (IZR n / IZR d)).
Proof.
  intros n d N D. destruct (dint_ok n ltac:(lia)) as [Fn Vn], (dint_ok d ltac:(lia)) as [Fd Vd].
  assert (N' : 0 <= IZR n <= 1000) by (split; apply IZR_le; lia). assert (D' : 1 <= IZR d <= 1000) by (split; apply IZR_le; lia).
  pose proof (div_range _ _ _ _ _ _ N' D' ltac:(lra) ltac:(lra)) as Q. rewrite <- Vn, <- Vd. apply ddiv_ok; [exact Fn|rewrite Vd; lra|].
  rewrite Vn, Vd. apply small_below_max. rewrite Rabs_pos_eq; lra.
Qed.

Definition tenths : list R := 0 :: repeat (1 / 10) 10.
Definition tenths_double : list double := decimal 0 10 :: repeat (decimal 1 10) 10.
Lemma tenths_distribution : distribution tenths /\ as_doubles tenths_double tenths.
Proof.
  split.
  - split; [reflexivity|]. split; [|cbn; lra]. intros x [<-|I]; [lra|]. apply repeat_spec in I. lra.
  - unfold tenths, tenths_double. constructor; [|cbn [repeat]; repeat constructor; apply (decimal_ok 1 10); lia].
    replace 0 with (IZR 0 / IZR 10) by lra. apply decimal_ok; lia.
Qed.

(** Ten coefficients of a tenth add up to one minus 2^-53: with a generator that can give that number the call would abort. *)
Theorem replicas_every_sample_refuted : ~ (forall q cs p, distribution q -> as_doubles cs q -> (Z.of_nat (length cs) <= 2 ^ 15)%Z ->
  is_finite p = true -> 0 <= real_of p < 1 -> exists n, replicas_double cs p = Ok n).
Proof.
  intros C. destruct tenths_distribution as [D A]. destruct (C tenths tenths_double (dnum (2 ^ 53 - 1) (-53)) D A) as (n & N).
  - vm_compute. discriminate.
  - reflexivity.
  - assert (V : is_double (dnum (2 ^ 53 - 1) (-53)) (rnd (IZR (2 ^ 53 - 1) * bpow radix2 (-53)))).
    { apply dnum_ok. apply small_below_max. change (bpow radix2 (-53)) with (/ 9007199254740992). change (2 ^ 53 - 1)%Z with 9007199254740991%Z. rewrite Rabs_pos_eq; lra. }
    destruct V as [_ V]. change (real_of (dnum (2 ^ 53 - 1) (-53)) = rnd (IZR (2 ^ 53 - 1) * bpow radix2 (-53))) in V. rewrite V.
    rewrite rnd_scaled by lia. change (bpow radix2 (-53)) with (/ 9007199254740992). change (2 ^ 53 - 1)%Z with 9007199254740991%Z. lra.
  - vm_compute in N. discriminate.
Qed.
Print Assumptions replicas_every_sample_refuted.

(** Half of the frames twice, 28 per cent three times, 22 per cent eight times. *)
Example replicas_double_case :
  let cs := [decimal 0 1; decimal 0 1; decimal 5 10; decimal 28 100; decimal 0 1; decimal 0 1; decimal 0 1; decimal 0 1; decimal 22 100] in
  map (replicas_double cs) [decimal 0 1; decimal 49 100; decimal 5 10; decimal 77 100; decimal 78 100; decimal 999 1000; decimal 1 1] =
    [Ok 2; Ok 2; Ok 3; Ok 3; Ok 8; Ok 8; Abort]%Z.
Proof. vm_compute. reflexivity. Qed.

(** * The closest satellite *)

(** A million kilometres in every direction. *)
Definition sky : R := 1000000000.

Lemma inside_far : forall v, inside sky v -> inside far v.
Proof.
  intros v ((A & B) & (C & D) & (E & F)). assert (S : sky <= far).
  { unfold sky, far. apply Rle_trans with (bpow radix2 53); [change (bpow radix2 53) with 9007199254740992; lra|apply bpow_le; lia]. }
  repeat split; try assumption; lra.
Qed.
Lemma square_nonneg : forall a b, 0 <= square_of_distance a b.
Proof. intros a b. unfold square_of_distance. pose proof (pow2_ge_0 (px a - px b)). pose proof (pow2_ge_0 (py a - py b)). pose proof (pow2_ge_0 (pz a - pz b)). lra. Qed.
Lemma sky_apart : forall a b, inside sky a -> inside sky b -> 0 <= apart (place a) (place b) <= 3500000000 /\ apart (place a) (place b) ^ 2 = square_of_distance (place a) (place b).
Proof.
  intros a b ((_ & A1) & (_ & A2) & (_ & A3)) ((_ & B1) & (_ & B2) & (_ & B3)). pose proof (square_nonneg (place a) (place b)) as N. unfold apart. split; [|cbn [pow]; rewrite Rmult_1_r; apply sqrt_sqrt; exact N].
  split; [apply sqrt_pos|]. unfold sky in *. rewrite <- (sqrt_pow2 3500000000) by lra. apply sqrt_le_1_alt.
  assert (G : forall x y, Rabs x <= 1000000000 -> Rabs y <= 1000000000 -> (x - y) ^ 2 <= 4000000000000000000).
  { intros x y X Y. apply Rabs_le_inv in X. apply Rabs_le_inv in Y. assert (P : 0 <= (2000000000 - (x - y)) * (2000000000 + (x - y))) by (apply Rmult_le_pos; lra). lra. }
  unfold square_of_distance. cbn [px py pz place]. pose proof (G _ _ A1 B1). pose proof (G _ _ A2 B2). pose proof (G _ _ A3 B3). lra.
Qed.

(** The satellite found is at most a hundredth of a millimetre farther than any other; none is found only if there is none. *)
Theorem closest_double_near : forall pos c at_, (forall d, In (Some d) (concat (con_grid c)) -> inside sky (pos d)) -> inside sky at_ ->
  match closest_double pos c at_ with
  | None => forall d, ~ In (Some d) (concat (con_grid c))
  | Some d => In (Some d) (concat (con_grid c)) /\
      forall e, In (Some e) (concat (con_grid c)) -> apart (place (pos d)) (place at_) <= apart (place (pos e)) (place at_) + / 100000
  end.
Proof.
  intros pos c at_ Hp Ha. destruct (closest_best pos at_ c) as (sq & B).
  { intros d I. apply sq_close; apply inside_far; auto. }
  unfold best_of in B. cbn [fst snd] in B. destruct (closest_double pos c at_) as [d|]; [|exact (proj2 B)]. destruct B as (_ & I & Min). split; [exact I|].
  intros e Ie. specialize (Min e Ie). destruct (sq_close (pos d) at_) as (_ & E1 & _ & _); [apply inside_far; auto..|].
  destruct (sq_close (pos e) at_) as (_ & E2 & _ & _); [apply inside_far; auto..|].
  destruct (sky_apart (pos d) at_ (Hp d I) Ha) as [R1 Q1]. destruct (sky_apart (pos e) at_ (Hp e Ie) Ha) as [R2 Q2]. rewrite <- Q1 in E1. rewrite <- Q2 in E2.
  set (x := apart (place (pos d)) (place at_)) in *. set (y := apart (place (pos e)) (place at_)) in *. clearbody x y.
  pose proof eta_small as Et. assert (Ets : eta <= / 1000000000000000) by (rewrite u_val in Et; lra). rewrite u_val in *.
  apply Rnot_lt_le. intros G.
  assert (XY : (y + / 100000) ^ 2 <= x ^ 2) by (apply pow_incr; lra). assert (YY : y ^ 2 <= 3500000000 * y) by (cbn [pow]; rewrite Rmult_1_r; apply Rmult_le_compat_r; lra).
  replace ((y + / 100000) ^ 2) with (y ^ 2 + 2 / 100000 * y + / 10000000000) in XY by field. lra.
Qed.
Print Assumptions closest_double_near.

(** It need not be the closest: of two satellites whose distances differ by less than the precision the last one is taken. *)
Definition near_pair (d : nat) : dvec := match d with O => mkDvec (dint 1) (dint 0) (dint 0) | _ => mkDvec (dint 1) (dnum 1 (-30)) (dint 0) end.
Definition pair_grid : constellation := mkCon 1 1 2 [[Some 0%nat; Some 1%nat]] 2.
Theorem closest_double_refuted : ~ (forall pos c at_ d e, (forall d, In (Some d) (concat (con_grid c)) -> inside sky (pos d)) -> inside sky at_ ->
  closest_double pos c at_ = Some d -> In (Some e) (concat (con_grid c)) -> apart (place (pos d)) (place at_) <= apart (place (pos e)) (place at_)).
Proof.
  intros C. destruct (dint_ok 0 ltac:(lia)) as [F0 V0], (dint_ok 1 ltac:(lia)) as [F1 V1].
  assert (D : is_double (dnum 1 (-30)) (/ 1073741824)).
  { replace (/ 1073741824) with (rnd (1 * bpow radix2 (-30))) by (rewrite rnd_scaled by lia; change (bpow radix2 (-30)) with (/ 1073741824); ring).
    apply dnum_ok. change (bpow radix2 (-30)) with (/ 1073741824). apply small_below_max. rewrite Rabs_pos_eq; lra. }
  destruct D as [Fs Vs]. set (at_ := mkDvec (dint 0) (dint 0) (dint 0)).
  assert (Fin : forall (x : double) r, is_finite x = true -> B2R x = r -> 0 <= r <= 1 -> is_finite x = true /\ Rabs (real_of x) <= sky).
  { intros x r F V R. split; [exact F|]. unfold real_of. rewrite V, Rabs_pos_eq by lra. unfold sky. lra. }
  specialize (C near_pair pair_grid at_ 1%nat 0%nat).
  assert (E : apart (place (near_pair 1)) (place at_) <= apart (place (near_pair 0)) (place at_)).
  { apply C.
    - intros d _. destruct d; cbn [near_pair]; repeat split; cbn [dvx dvy dvz]; try assumption; unfold real_of; rewrite ?V0, ?V1, ?Vs, Rabs_pos_eq; unfold sky; lra.
    - unfold at_. repeat split; cbn [dvx dvy dvz]; try assumption; unfold real_of; rewrite ?V0, Rabs_pos_eq; unfold sky; lra.
    - vm_compute. reflexivity.
    - left. reflexivity. }
  unfold apart, square_of_distance, place, near_pair, at_ in E. cbn [px py pz dvx dvy dvz] in E. unfold real_of in E. rewrite V0, V1, Vs in E.
  apply sqrt_le_0 in E; lra.
Qed.
Print Assumptions closest_double_refuted.

(** * Links within reach *)

(** The test of the distance is right up to a hundredth of a millimetre. *)
Theorem within_double_near : forall limit a b, is_finite limit = true -> 0 <= real_of limit -> inside sky a -> inside sky b ->
  (within_double limit a b = true -> apart (place a) (place b) <= real_of limit + / 100000) /\
  (apart (place a) (place b) <= real_of limit - / 100000 -> within_double limit a b = true).
Proof.
  intros limit a b F P Ia Ib. destruct (distance_close a b (inside_far _ Ia) (inside_far _ Ib)) as (Fd & Pd & _ & Ed).
  destruct (sky_apart a b Ia Ib) as [R Q]. rewrite <- Q in Ed. change (real_of limit) with (B2R limit) in *. unfold within_double. rewrite dle_ok by assumption.
  rewrite within_squares by assumption. set (x := apart (place a) (place b)) in *. set (l := B2R limit) in *. clearbody x l.
  pose proof eta_small as Et. assert (Ets : eta <= / 1000000000000000) by (rewrite u_val in Et; lra). rewrite u_val in *.
  assert (XX : x ^ 2 <= 3500000000 * x) by (cbn [pow]; rewrite Rmult_1_r; apply Rmult_le_compat_r; lra). split; intros H.
  - apply Rnot_lt_le. intros G. assert (LX : l ^ 2 <= (x - / 100000) ^ 2) by (apply pow_incr; lra).
    replace ((x - / 100000) ^ 2) with (x ^ 2 - 2 / 100000 * x + / 10000000000) in LX by field. assert (/ 100000 <= x) by lra. lra.
  - assert (XL : (x + / 100000) ^ 2 <= l ^ 2) by (apply pow_incr; lra).
    replace ((x + / 100000) ^ 2) with (x ^ 2 + 2 / 100000 * x + / 10000000000) in XL by field. lra.
Qed.
Print Assumptions within_double_near.

(** Between satellites the limit is computed from the altitude [h] and the radius [r] of the Earth plus 80 km: the square of
    the distance at which they see each other, up to 2^-46 of the squares involved.  A satellite lower than [r] has no
    limit, and no link of it ever succeeds. *)
Theorem isl_within_double : forall r h a b, is_finite r = true -> is_finite h = true -> 1 <= real_of r <= sky -> 1 <= real_of h <= sky ->
  inside sky a -> inside sky b ->
  let tolerance := / 2 ^ 46 * (real_of h ^ 2 + real_of r ^ 2) in
  (within_double (max_distance_double r h) a b = true ->
     apart (place a) (place b) ^ 2 <= 4 * (real_of h ^ 2 - real_of r ^ 2) + tolerance) /\
  (apart (place a) (place b) ^ 2 <= 4 * (real_of h ^ 2 - real_of r ^ 2) - tolerance ->
     within_double (max_distance_double r h) a b = true).
Proof.
  intros r h a b Fr Fh Br Bh Ia Ib tol. destruct (sky_apart a b Ia Ib) as [_ Q]. rewrite Q.
  assert (S : sky <= far).
  { unfold sky, far. apply Rle_trans with (bpow radix2 53); [change (bpow radix2 53) with 9007199254740992; lra|apply bpow_le; lia]. }
  change (real_of r) with (B2R r) in *. change (real_of h) with (B2R h) in *.
  pose proof (isl_within r h a b Fr Fh ltac:(lra) ltac:(lra) (inside_far _ Ia) (inside_far _ Ib)) as W. cbv zeta in W.
  replace tol with (128 * u * (B2R h ^ 2 + B2R r ^ 2)); [exact W|]. unfold tol. rewrite u_val. cbn [pow]. field.
Qed.
Print Assumptions isl_within_double.

(** Satellites 600 km high, 6371 km being the radius of the Earth: visible at 5000 km, not at 5400; and one 50 km high sees nothing. *)
Example within_double_case :
  let r := dint (6371000 + 80000) in let along n := mkDvec (dint n) (dint 0) (dint 0) in
  map (fun n => within_double (max_distance_double r (dint (6371000 + 600000))) (along 0%Z) (along n)) [5000000; 5400000]%Z = [true; false] /\
  within_double (max_distance_double r (dint (6371000 + 50000))) (along 0%Z) (along 0%Z) = false /\
  closest_double near_pair pair_grid (along 0%Z) = Some 1%nat /\ closest_double near_pair pair_grid (along 2%Z) = Some 1%nat /\
  closest_double (fun d => along (Z.of_nat d)) pair_grid (along 0%Z) = Some 0%nat.
Proof. vm_compute. repeat split. Qed.
