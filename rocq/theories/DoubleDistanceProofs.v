(** * Proofs about distances in double precision *)

From Coq Require Import ZArith List Bool Reals Lia Lra Psatz.
From Flocq Require Import Core BinarySingleNaN.
From Verif Require Import Base ConstellationModel DoubleModel DoubleSpec DoubleProofs.
Import ListNotations.
Open Scope R_scope.

(** The largest coordinate considered: far from overflow. *)
Definition far : R := bpow radix2 400.
Lemma far_pos : 1 <= far.
Proof. change 1 with (bpow radix2 0). apply bpow_le. lia. Qed.
Lemma far_mul : forall k, 0 <= k <= 1000000 -> k * far ^ 2 <= bpow radix2 1023.
Proof.
  intros k K. assert (F : far ^ 2 = bpow radix2 800) by (unfold far; cbn [pow]; rewrite Rmult_1_r, <- bpow_plus; reflexivity). rewrite F.
  apply Rle_trans with (bpow radix2 20 * bpow radix2 800); [apply Rmult_le_compat_r; [apply bpow_ge_0|change (bpow radix2 20) with 1048576; lra]|].
  rewrite <- bpow_plus. apply bpow_le. lia.
Qed.

(** Rounding a number that is not negative. *)
Lemma rnd_nonneg : forall x, 0 <= x -> 0 <= rnd x.
Proof. intros x H. rewrite <- (rnd_int 0) by lia. apply rnd_le. exact H. Qed.
Lemma rnd_sandwich : forall x, 0 <= x -> x * (1 - u) - eta <= rnd x <= x * (1 + u) + eta.
Proof.
  intros x H. destruct (rnd_rel_abs x) as (e & d & E & D & ->). apply Rabs_le_inv in E. apply Rabs_le_inv in D. split.
  - apply Rle_trans with (x * (1 + e) - eta); [|lra]. apply Rplus_le_compat_r. apply Rmult_le_compat_l; lra.
  - apply Rle_trans with (x * (1 + e) + eta); [lra|]. apply Rplus_le_compat_r. apply Rmult_le_compat_l; lra.
Qed.
Lemma plus_sandwich : forall x y : double, 0 <= val x + val y -> (val x + val y) * (1 - u) <= rnd (val x + val y) <= (val x + val y) * (1 + u).
Proof. intros x y H. destruct (rnd_plus x y) as (e & E & ->). apply Rabs_le_inv in E. split; apply Rmult_le_compat_l; lra. Qed.
Lemma minus_error : forall x y : double, exists e, Rabs e <= u /\ rnd (val x - val y) = (val x - val y) * (1 + e).
Proof.
  intros x y. destruct (rnd_plus x (Bopp y)) as (e & E & R). rewrite B2R_Bopp in R. exists e. split; [exact E|exact R].
Qed.

(** The square of one coordinate of the difference. *)
Lemma square_close : forall a b : double, is_finite a = true -> is_finite b = true -> Rabs (val a) <= far -> Rabs (val b) <= far ->
  let d := dsub b a in let S := (val a - val b) ^ 2 in
  is_finite (dmul d d) = true /\ S * (1 - u) ^ 3 - eta <= val (dmul d d) <= S * (1 + u) ^ 3 + eta /\ 0 <= val (dmul d d) /\ 0 <= S <= 4 * far ^ 2.
Proof.
  intros a b Fa Fb Ba Bb d S. apply Rabs_le_inv in Ba. apply Rabs_le_inv in Bb. pose proof far_pos as F1.
  pose proof (far_mul 1 ltac:(lra)) as M1. pose proof (far_mul 100 ltac:(lra)) as M9.
  assert (B : Rabs (val b - val a) <= 2 * far) by (apply Rabs_le; lra).
  destruct (dsub_ok b a Fb Fa) as [Fd Vd]; [apply Rle_trans with (1 := B); nra|]. fold d in Fd, Vd.
  destruct (minus_error b a) as (e & E & R). rewrite R in Vd. pose proof u_pos as Up. assert (Us : u <= / 1000) by (rewrite u_val; lra).
  apply Rabs_le_inv in E. assert (S4 : 0 <= S <= 4 * far ^ 2).
  { unfold S. apply Rabs_le_inv in B. split; [apply pow2_ge_0|]. assert (P : 0 <= (2 * far - (val a - val b)) * (2 * far + (val a - val b))) by (apply Rmult_le_pos; lra). lra. }
  assert (Sq : val d * val d = S * (1 + e) ^ 2) by (rewrite Vd; unfold S; ring).
  assert (E2 : (1 - u) ^ 2 <= (1 + e) ^ 2 <= (1 + u) ^ 2) by (split; apply pow_incr; lra).
  assert (SqB : S * (1 - u) ^ 2 <= val d * val d <= S * (1 + u) ^ 2) by (rewrite Sq; split; apply Rmult_le_compat_l; lra).
  assert (Sq0 : 0 <= val d * val d) by apply Rle_0_sqr.
  destruct (dmul_ok d d Fd Fd) as [Fm Vm].
  { rewrite Rabs_pos_eq by exact Sq0. apply Rle_trans with (100 * far ^ 2); [|exact M9]. apply Rle_trans with (1 := proj2 SqB). rewrite u_val. clear - S4. lra. }
  split; [exact Fm|]. split; [|split; [rewrite Vm; apply rnd_nonneg; exact Sq0|exact S4]]. rewrite Vm.
  pose proof (rnd_sandwich _ Sq0) as [L H]. split.
  - apply Rle_trans with (2 := L). apply Rplus_le_compat_r. replace (S * (1 - u) ^ 3) with (S * (1 - u) ^ 2 * (1 - u)) by ring. apply Rmult_le_compat_r; lra.
  - apply Rle_trans with (1 := H). apply Rplus_le_compat_r. replace (S * (1 + u) ^ 3) with (S * (1 + u) ^ 2 * (1 + u)) by ring. apply Rmult_le_compat_r; lra.
Qed.

Lemma sq_close : forall a b, inside far a -> inside far b ->
  let S := square_of_distance (place a) (place b) in
  is_finite (dsq a b) = true /\ S * (1 - 6 * u) - 4 * eta <= val (dsq a b) <= S * (1 + 6 * u) + 4 * eta /\ 0 <= val (dsq a b) /\ 0 <= S <= 12 * far ^ 2.
Proof.
  intros a b ((Fax & Bax) & (Fay & Bay) & (Faz & Baz)) ((Fbx & Bbx) & (Fby & Bby) & (Fbz & Bbz)) S.
  destruct (square_close _ _ Fax Fbx Bax Bbx) as (Fx & Ex & Px & Sx). destruct (square_close _ _ Fay Fby Bay Bby) as (Fy & Ey & Py & Sy).
  destruct (square_close _ _ Faz Fbz Baz Bbz) as (Fz & Ez & Pz & Sz). unfold dsq. cbv zeta in *.
  set (X := dmul _ (dsub (dvx b) (dvx a))) in *. set (Y := dmul _ (dsub (dvy b) (dvy a))) in *. set (Z := dmul _ (dsub (dvz b) (dvz a))) in *.
  assert (ES : S = (val (dvx a) - val (dvx b)) ^ 2 + (val (dvy a) - val (dvy b)) ^ 2 + (val (dvz a) - val (dvz b)) ^ 2) by reflexivity.
  set (sx := (val (dvx a) - val (dvx b)) ^ 2) in *. set (sy := (val (dvy a) - val (dvy b)) ^ 2) in *. set (sz := (val (dvz a) - val (dvz b)) ^ 2) in *.
  clearbody X Y Z sx sy sz S. subst S.
  pose proof u_pos as Up. assert (Us : u <= / 1000) by (rewrite u_val; lra). pose proof eta_small as Et. pose proof far_pos as F1.
  assert (P3 : 1 - 3 * u <= (1 - u) ^ 3 /\ (1 + u) ^ 3 <= 1 + 7 / 2 * u) by (rewrite u_val; cbn [pow]; lra).
  assert (G : forall s v, 0 <= s -> s * (1 - u) ^ 3 - eta <= v <= s * (1 + u) ^ 3 + eta -> s * (1 - 3 * u) - eta <= v <= s * (1 + 7 / 2 * u) + eta).
  { intros s v H [L H']. split; [apply Rle_trans with (2 := L)|apply Rle_trans with (1 := H')]; apply Rplus_le_compat_r; apply Rmult_le_compat_l; lra. }
  apply G in Ex; [|lra]. apply G in Ey; [|lra]. apply G in Ez; [|lra]. clear G P3.
  assert (F2 : 1 <= far ^ 2) by (apply pow_R1_Rle; exact F1). pose proof (far_mul 100 ltac:(lra)) as M. set (f := far ^ 2) in *. clearbody f.
  rewrite u_val in *. clear Up Us F1.
  destruct (dadd_ok X Y Fx Fy) as [Fxy Vxy]; [rewrite Rabs_pos_eq by lra; lra|].
  pose proof (plus_sandwich X Y ltac:(lra)) as XY. rewrite <- Vxy, u_val in XY. set (W := dadd X Y) in *. clearbody W.
  destruct (dadd_ok W Z Fxy Fz) as [Fw Vw]; [rewrite Rabs_pos_eq by lra; lra|].
  pose proof (plus_sandwich W Z ltac:(lra)) as WZ. rewrite <- Vw, u_val in WZ. split; [exact Fw|]. lra.
Qed.

(** * The closest satellite *)

Lemma fold_concat : forall {A B : Type} (f : A -> B -> A) (ls : list (list B)) (a : A),
  fold_left (fun acc l => fold_left f l acc) ls a = fold_left f (concat ls) a.
Proof. intros A B f. induction ls as [|l ls IH]; intros a; cbn; [reflexivity|]. rewrite fold_left_app. apply IH. Qed.

Lemma below_infinity : forall x : double, is_finite x = true -> dle x dinf = true.
Proof. intros [[]|[]| |[] m e H] F; try discriminate; reflexivity. Qed.

Section closest.
Context (pos : nat -> dvec) (at_ : dvec).

(** What is known after some slots have been visited. *)
Definition best_of (visited : list (option nat)) (acc : option nat * double) : Prop :=
  match fst acc with
  | None => snd acc = dinf /\ forall d, ~ In (Some d) visited
  | Some d => snd acc = dsq (pos d) at_ /\ In (Some d) visited /\ forall e, In (Some e) visited -> val (dsq (pos d) at_) <= val (dsq (pos e) at_)
  end.

Lemma best_step : forall visited acc s, (forall d, In (Some d) (visited ++ [s]) -> is_finite (dsq (pos d) at_) = true) ->
  best_of visited acc -> best_of (visited ++ [s]) (closest_double_step pos at_ acc s).
Proof.
  intros visited [best sq] [d|] Fin B; unfold closest_double_step; cbn [snd].
  - assert (Fd : is_finite (dsq (pos d) at_) = true) by (apply Fin, in_or_app; right; left; reflexivity).
    destruct best as [b|]; cbn in B.
    + destruct B as (-> & Ib & Min). assert (Fb : is_finite (dsq (pos b) at_) = true) by (apply Fin, in_or_app; left; exact Ib).
      destruct (dle (dsq (pos d) at_) (dsq (pos b) at_)) eqn:L; cbn.
      * apply dle_ok in L; [|assumption..]. split; [reflexivity|]. split; [apply in_or_app; right; left; reflexivity|].
        intros e I. apply in_app_iff in I. destruct I as [I|[I|[]]]; [apply Rle_trans with (1 := L), Min, I|]. injection I as <-. apply Rle_refl.
      * split; [reflexivity|]. split; [apply in_or_app; left; exact Ib|]. intros e I. apply in_app_iff in I. destruct I as [I|[I|[]]]; [apply Min, I|].
        injection I as <-. apply Rnot_lt_le. intros G. assert (dle (dsq (pos d) at_) (dsq (pos b) at_) = true) by (apply dle_ok; [assumption..|lra]). congruence.
    + destruct B as [-> No]. rewrite below_infinity by exact Fd. cbn. split; [reflexivity|]. split; [apply in_or_app; right; left; reflexivity|].
      intros e I. apply in_app_iff in I. destruct I as [I|[I|[]]]; [destruct (No e I)|]. injection I as <-. apply Rle_refl.
  - destruct best as [b|]; cbn in *.
    + destruct B as (-> & Ib & Min). split; [reflexivity|]. split; [apply in_or_app; left; exact Ib|].
      intros e I. apply in_app_iff in I. destruct I as [I|[I|[]]]; [apply Min, I|discriminate].
    + destruct B as [-> No]. split; [reflexivity|]. intros e I. apply in_app_iff in I. destruct I as [I|[I|[]]]; [exact (No e I)|discriminate].
Qed.

Lemma best_fold : forall slots visited acc, (forall d, In (Some d) (visited ++ slots) -> is_finite (dsq (pos d) at_) = true) ->
  best_of visited acc -> best_of (visited ++ slots) (fold_left (closest_double_step pos at_) slots acc).
Proof.
  induction slots as [|s slots IH]; intros visited acc Fin B; cbn [fold_left].
  - rewrite app_nil_r. exact B.
  - replace (visited ++ s :: slots) with ((visited ++ [s]) ++ slots) in * by (rewrite <- app_assoc; reflexivity). apply IH; [exact Fin|].
    apply best_step; [|exact B]. intros d I. apply Fin, in_or_app. left. exact I.
Qed.
End closest.

Lemma closest_best : forall pos at_ c, (forall d, In (Some d) (concat (con_grid c)) -> is_finite (dsq (pos d) at_) = true) ->
  exists sq, best_of pos at_ (concat (con_grid c)) (closest_double pos c at_, sq).
Proof.
  intros pos at_ c Fin. unfold closest_double. rewrite fold_concat.
  pose proof (best_fold pos at_ (concat (con_grid c)) [] (None, dinf) Fin) as B.
  destruct (fold_left (closest_double_step pos at_) (concat (con_grid c)) (None, dinf)) as [b sq]. exists sq. apply B. cbn. split; [reflexivity|]. intros d [].
Qed.

(** * Distances *)

Lemma dsqrt_ok : forall x : double, is_finite x = true -> 0 <= val x ->
  is_finite (dsqrt x) = true /\ 0 <= val (dsqrt x) /\ val x * (1 - u) ^ 2 <= val (dsqrt x) ^ 2 <= val x * (1 + u) ^ 2.
Proof.
  intros x F P. destruct (@Bsqrt_correct 53 1024 dprec dmax mode_NE x) as (V & Fs & _). change (val (dsqrt x) = rnd (sqrt (val x))) in V.
  assert (Fx : is_finite (dsqrt x) = true).
  { etransitivity; [exact Fs|]. destruct x as [s|s| |s m e H]; try discriminate; [reflexivity|]. destruct s; [|reflexivity].
    exfalso. cbn in P. assert (F2R (Float radix2 (Z.neg m) e) < 0) by (apply F2R_lt_0; reflexivity). lra. }
  split; [exact Fx|]. rewrite V. split; [apply rnd_nonneg, sqrt_pos|].
  destruct (Rle_lt_or_eq_dec 0 (val x) P) as [G|<-].
  - assert (St : is_finite_strict x = true) by (destruct x; [cbn in G; lra|discriminate..|reflexivity]).
    pose proof (abs_B2R_ge_emin 53 1024 x St) as Ge. change (bpow radix2 (-1074) <= Rabs (val x)) in Ge. rewrite Rabs_pos_eq in Ge by exact P.
    assert (Sq : bpow radix2 (-537) <= sqrt (val x)).
    { rewrite <- (sqrt_bpow radix2 (-537)). apply sqrt_le_1_alt. exact Ge. }
    destruct (rnd_rel (sqrt (val x))) as (e & E & ->).
    { rewrite Rabs_pos_eq by apply sqrt_pos. apply Rle_trans with (2 := Sq). apply bpow_le. lia. }
    apply Rabs_le_inv in E. pose proof u_pos as Up. assert (Us : u <= / 1000) by (rewrite u_val; lra).
    replace ((sqrt (val x) * (1 + e)) ^ 2) with (sqrt (val x) * sqrt (val x) * (1 + e) ^ 2) by ring. rewrite sqrt_sqrt by exact P.
    split; (apply Rmult_le_compat_l; [exact P|]; apply pow_incr; lra).
  - rewrite sqrt_0, (rnd_int 0) by lia. cbn [pow]. lra.
Qed.

Lemma distance_close : forall a b, inside far a -> inside far b ->
  let S := square_of_distance (place a) (place b) in
  is_finite (ddistance a b) = true /\ 0 <= val (ddistance a b) /\ 0 <= S /\ S * (1 - 9 * u) - 5 * eta <= val (ddistance a b) ^ 2 <= S * (1 + 9 * u) + 5 * eta.
Proof.
  intros a b Ia Ib S. destruct (sq_close a b Ia Ib) as (F & E & P & S0). fold S in E, S0. destruct (dsqrt_ok (dsq a b) F P) as (Fs & Ps & Es).
  split; [exact Fs|]. split; [exact Ps|]. split; [lra|]. pose proof eta_small as Et. unfold ddistance. rewrite u_val in *. cbn [pow] in Es. lra.
Qed.

Lemma within_squares : forall x y, 0 <= x -> 0 <= y -> (x <= y <-> x ^ 2 <= y ^ 2).
Proof. intros x y X Y. split; intros H; [apply pow_incr; lra|]. apply Rnot_lt_le. intros G. assert (y ^ 2 < x ^ 2) by (cbn; nra). lra. Qed.

(** A comparison with a number that is not finite and positive. *)
Lemma nan_false : forall x y : double, is_nan y = true -> dle x y = false.
Proof. intros [[]|[]| |[] m e H] [[]|[]| |[] m' e' H'] N; try discriminate; reflexivity. Qed.

(** * The limit between satellites *)

Lemma square_ok : forall x : double, is_finite x = true -> 1 <= val x <= far ->
  is_finite (dmul x x) = true /\ val x ^ 2 * (1 - u) <= val (dmul x x) <= val x ^ 2 * (1 + u) /\ 1 <= val x ^ 2 <= far ^ 2.
Proof.
  intros x F [L H]. assert (Q : 1 <= val x ^ 2 <= far ^ 2) by (split; [apply pow_R1_Rle; exact L|apply pow_incr; lra]).
  assert (E : val x * val x = val x ^ 2) by ring. destruct (dmul_ok x x F F) as [Fm Vm].
  { rewrite E, Rabs_pos_eq by lra. apply Rle_trans with (1 * far ^ 2); [lra|apply far_mul; lra]. }
  split; [exact Fm|]. split; [|exact Q]. rewrite Vm, E. apply rnd_pos. assert (/ 1000000000000 <= 1) by lra. lra.
Qed.

Lemma sqrt_negative : forall x : double, is_finite x = true -> val x < 0 -> is_nan (dsqrt x) = true.
Proof.
  intros [s|s| |s m e H] F N; try discriminate; [cbn in N; lra|]. destruct s; [reflexivity|].
  exfalso. cbn in N. assert (0 < F2R (Float radix2 (Z.pos m) e)) by (apply F2R_gt_0; reflexivity). lra.
Qed.
Lemma mul_nan : forall x y : double, is_nan y = true -> is_nan (dmul x y) = true.
Proof. intros [[]|[]| |[] m e H] [[]|[]| |[] m' e' H'] N; try discriminate; reflexivity. Qed.

(** Either the limit is not a number, and the satellite is too low, or its square is close to what it should be. *)
Lemma limit_close : forall r h : double, is_finite r = true -> is_finite h = true -> 1 <= val r <= far -> 1 <= val h <= far ->
  let T := 4 * (val h ^ 2 - val r ^ 2) in let w := val h ^ 2 + val r ^ 2 in
  (is_nan (max_distance_double r h) = true /\ T <= 30 * u * w) \/
  (is_finite (max_distance_double r h) = true /\ 0 <= val (max_distance_double r h) /\
   T - 30 * u * w <= val (max_distance_double r h) ^ 2 <= T + 30 * u * w).
Proof.
  intros r h Fr Fh Br Bh T w. destruct (square_ok r Fr Br) as (Frr & Err & Qr), (square_ok h Fh Bh) as (Fhh & Ehh & Qh).
  unfold max_distance_double. set (H := dmul h h) in *. set (Rr := dmul r r) in *. clearbody H Rr.
  set (h2 := val h ^ 2) in *. set (r2 := val r ^ 2) in *. clearbody h2 r2. pose proof (far_mul 100 ltac:(lra)) as M. set (f := far ^ 2) in *. clearbody f.
  rewrite u_val in *. destruct (dsub_ok H Rr Fhh Frr) as [Fs Vs]; [apply Rabs_le; lra|]. destruct (minus_error H Rr) as (e & E & Re). rewrite Re in Vs. clear Re.
  rewrite u_val in E. apply Rabs_le_inv in E. set (S := dsub H Rr) in *. clearbody S.
  assert (Sd : val H - val Rr - 3 * / 9007199254740992 * w <= val S <= val H - val Rr + 3 * / 9007199254740992 * w).
  { rewrite Vs. assert (B1 : Rabs ((val H - val Rr) * e) <= 3 * / 9007199254740992 * w).
    - rewrite Rabs_mult. apply Rle_trans with ((2 * w) * / 9007199254740992); [|unfold w; lra].
      apply Rmult_le_compat; [apply Rabs_pos|apply Rabs_pos|apply Rabs_le; unfold w; lra|apply Rabs_le; lra].
    - apply Rabs_le_inv in B1. lra. }
  destruct (Rlt_or_le (val S) 0) as [N|P].
  - left. split; [apply mul_nan, sqrt_negative; assumption|]. unfold T, w in *. lra.
  - right. destruct (dsqrt_ok S Fs P) as (Fq & Pq & Eq). rewrite u_val in Eq. set (q := dsqrt S) in *. clearbody q.
    destruct (dint_ok 2 ltac:(lia)) as [F2 V2]. assert (Q1 : val q ^ 2 <= 16 * f) by (unfold w in *; cbn [pow] in Eq |- *; lra).
    assert (Qb : 2 * val q <= bpow radix2 1023).
    { destruct (Rle_or_lt (val q) 1) as [L|L]; [lra|]. assert (val q <= val q ^ 2) by (cbn [pow]; rewrite Rmult_1_r; rewrite <- (Rmult_1_l (val q)) at 1; apply Rmult_le_compat_r; lra). lra. }
    destruct (dmul_ok (dint 2) q F2 Fq) as [Fl Vl]; [rewrite V2, Rabs_pos_eq by lra; exact Qb|].
    assert (X : rnd (val (dint 2) * val q) = 2 * val q).
    { rewrite V2. apply round_generic; [apply valid_rnd_N|]. pose proof (FLT_format_B2R 53 1024 dprec q) as G. destruct G as [[m x] Ef Em Ee]. cbn [Fnum Fexp] in Em, Ee.
      apply generic_format_FLT. exists (Float radix2 m (x + 1)); cbn [Fnum Fexp]; [|exact Em|unfold SpecFloat.emin in Ee; lia].
      rewrite Ef. unfold F2R. cbn [Fnum Fexp]. rewrite bpow_plus. change (bpow radix2 1) with 2. ring. }
    rewrite Vl, X. split; [exact Fl|]. split; [lra|]. replace ((2 * val q) ^ 2) with (4 * val q ^ 2) by ring. cbn [pow] in Eq |- *. unfold T, w in *. lra.
Qed.

Lemma isl_within : forall r h a b, is_finite r = true -> is_finite h = true -> 1 <= val r <= far -> 1 <= val h <= far -> inside far a -> inside far b ->
  let D := square_of_distance (place a) (place b) in let T := 4 * (val h ^ 2 - val r ^ 2) in let w := val h ^ 2 + val r ^ 2 in
  (within_double (max_distance_double r h) a b = true -> D <= T + 128 * u * w) /\
  (D <= T - 128 * u * w -> within_double (max_distance_double r h) a b = true).
Proof.
  intros r h a b Fr Fh Br Bh Ia Ib D T w. destruct (distance_close a b Ia Ib) as (Fd & Pd & PD & Ed). fold D in PD, Ed.
  destruct (square_ok r Fr Br) as (_ & _ & Qr), (square_ok h Fh Bh) as (_ & _ & Qh).
  pose proof (limit_close r h Fr Fh Br Bh) as L. cbv zeta in L. fold T w in L. set (lim := max_distance_double r h) in *. clearbody lim. unfold within_double.
  assert (W : 2 <= w /\ - (4 * w) <= T <= 4 * w) by (unfold w, T; lra). clearbody T w D. pose proof eta_small as Et. rewrite u_val in *. destruct L as [[N L]|(Fl & Pl & L)].
  - rewrite nan_false by exact N. split; [discriminate|]. intros H. exfalso. lra.
  - rewrite dle_ok by assumption. rewrite within_squares by assumption. split; intros H; lra.
Qed.
