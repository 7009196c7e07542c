(** * Proofs about the number of replicas in double precision *)

From Coq Require Import ZArith List Bool Reals Lia Lra Psatz.
From Flocq Require Import Core BinarySingleNaN.
From Verif Require Import Base DoubleModel DoubleSpec DoubleProofs.
Import ListNotations.
Open Scope R_scope.

(** One step of the sum: [q] is what the coefficient should be. *)
Lemma sum_step : forall s c S q k, is_finite s = true -> is_double c (rnd q) -> 0 <= q -> 0 <= S -> S + q <= 1 -> 0 <= k <= / 4 ->
  Rabs (val s - S) <= k ->
  is_finite (dadd s c) = true /\ Rabs (val (dadd s c) - (S + q)) <= k + 4 * u /\ 0 <= val c /\ (val c = 0 -> val (dadd s c) = val s).
Proof.
  intros s c S q k Fs [Fc Vc] Hq HS HT Hk HE. destruct (rnd_rel_abs q) as (e1 & d1 & E1 & D1 & R1).
  pose proof eta_small as Et. pose proof u_pos as Up. assert (Us : u <= / 1000) by (rewrite u_val; lra).
  apply Rabs_le_inv in HE. apply Rabs_le_inv in E1. apply Rabs_le_inv in D1.
  assert (Q1 : Rabs (rnd q - q) <= 2 * u).
  { rewrite R1. replace (q * (1 + e1) + d1 - q) with (q * e1 + d1) by ring. apply Rabs_le. nra. }
  apply Rabs_le_inv in Q1. assert (C0 : 0 <= val c). { rewrite Vc. rewrite <- (rnd_int 0) by lia. apply rnd_le. exact Hq. }
  assert (B : Rabs (val s + val c) <= 2) by (apply Rabs_le; rewrite Vc; lra).
  destruct (dadd_ok s c Fs Fc) as [Fa Va]; [apply small_below_max; lra|]. split; [exact Fa|]. split; [|split; [exact C0|]].
  - destruct (rnd_plus s c) as (e2 & E2 & R2). rewrite Va, R2. rewrite Vc in *. apply Rabs_le_inv in E2. apply Rabs_le_inv in B.
    apply Rabs_le. split; nra.
  - intros Z. rewrite Va, Z, Rplus_0_r. apply double_self.
Qed.

Lemma loop_inverts : forall cs q p s S n k, as_doubles cs q -> (forall x, In x q -> 0 <= x) -> is_finite p = true -> is_finite s = true ->
  val s <= val p -> Rabs (val s - S) <= k -> 0 <= k -> k + 4 * u * INR (length cs) <= / 4 -> 0 <= S -> S + total q <= 1 ->
  val p + k + 4 * u * INR (length cs) < S + total q -> (0 <= n)%Z -> (n + Z.of_nat (length cs) <= 2 ^ 16)%Z ->
  exists m, replicas_double_loop p s n cs = Ok (n + Z.of_nat m)%Z /\ (m < length cs)%nat /\ 0 < nth m q 0 /\
    S + below q m - (k + 4 * u * INR (length cs)) <= val p < S + below q (m + 1) + (k + 4 * u * INR (length cs)).
Proof.
  induction cs as [|c cs IH]; intros q p s S n k A Pos Fp Fs Lo Er K0 K1 S0 S1 Hi N0 N1; inversion A as [|c' x cs' q' Cx Aq]; subst.
  - exfalso. cbn in Hi. apply Rabs_le_inv in Er. lra.
  - cbn [replicas_double_loop]. cbn [total] in *. cbn [length] in *. rewrite S_INR in *. pose proof u_pos as Up. pose proof (pos_INR (length cs)) as LI.
    assert (TQ : forall l, (forall y, In y l -> 0 <= y) -> 0 <= total l).
    { induction l as [|y l IHl]; intros P; cbn; [lra|]. pose proof (P y (or_introl eq_refl)). specialize (IHl (fun z Z => P z (or_intror Z))). lra. }
    assert (T0 : 0 <= total q') by (apply TQ; intros y Y; apply Pos; right; exact Y).
    assert (X0 : 0 <= x) by (apply Pos; left; reflexivity).
    assert (K4 : 0 <= k <= / 4) by (split; [exact K0|]; nra).
    destruct (sum_step s c S x k Fs Cx X0 S0 ltac:(lra) K4 Er) as (Fa & Ea & C0 & Z).
    destruct (dint_ok 0 ltac:(lia)) as [F0 V0]. destruct Cx as [Fc Vc]. change (real_of c) with (val c) in Vc. change (nearest x) with (rnd x) in Vc.
    destruct (dlt (dint 0) c && dlt p (dadd s c)) eqn:T.
    + apply andb_true_iff in T. destruct T as [T1 T2]. apply dlt_ok in T1; [|assumption..]. apply dlt_ok in T2; [|assumption..]. rewrite V0 in T1.
      exists 0%nat. rewrite Z.add_0_r. split; [unfold u16; rewrite Z.mod_small by lia; reflexivity|]. split; [lia|]. cbn [nth].
      assert (0 < x). { destruct X0 as [|<-]; [assumption|]. exfalso. rewrite Vc in T1. rewrite (rnd_int 0) in T1 by lia. lra. }
      split; [assumption|]. unfold below. cbn [firstn total Nat.add]. apply Rabs_le_inv in Ea. apply Rabs_le_inv in Er. nra.
    + assert (Lo' : val (dadd s c) <= val p).
      { apply andb_false_iff in T. destruct T as [T|T].
        - rewrite Z; [exact Lo|]. destruct (Rle_lt_or_eq_dec 0 (val c) C0) as [G|G]; [|symmetry; exact G].
          exfalso. assert (dlt (dint 0) c = true) by (apply dlt_ok; [assumption..|rewrite V0; exact G]). congruence.
        - apply Rnot_lt_le. intros G. assert (dlt p (dadd s c) = true) by (apply dlt_ok; assumption). congruence. }
      destruct (IH q' p (dadd s c) (S + x) (n + 1)%Z (k + 4 * u) Aq) as (m & R1 & R2 & R3 & R4); try assumption; try lra; try lia.
      * intros y Y. apply Pos. right. exact Y.
      * exists (Datatypes.S m). rewrite R1. split; [f_equal; lia|]. split; [lia|]. split; [exact R3|]. unfold below in *. cbn [Nat.add firstn total]. lra.
Qed.
