(** The angles of the helper stay near the exact ones. *)
From Coq Require Import ZArith List Lia Bool Arith Reals Lra Psatz.
From Flocq Require Import Core BinarySingleNaN.
From Verif Require Import Base SatAddrModel SatAddrProofs ConstellationModel ConstellationSpec ConstellationProofs LaunchModel LaunchSpec LaunchProofs DoubleModel DoubleSpec DoubleProofs OrbitDoubleProofs LaunchDoubleModel LaunchDoubleSpec.
Import ListNotations.
Open Scope R_scope.

Lemma rnd_about : forall x m, Rabs x <= m -> 1 <= m -> Rabs (rnd x - x) <= 3 / 10 ^ 16 * m.
Proof.
  intros x m B M. destruct (rnd_rel_abs x) as (e & d & E & D & ->). pose proof eta_small as H. rewrite u_val in *. replace (x * (1 + e) + d - x) with (x * e + d) by ring.
  eapply Rle_trans; [apply Rabs_triang|]. rewrite Rabs_mult. assert (Rabs x * Rabs e <= m * / 9007199254740992) by (apply Rmult_le_compat; try apply Rabs_pos; assumption). lra.
Qed.
Lemma nat_about : forall n, (Z.of_nat n <= 10 ^ 7)%Z -> is_double (dint (Z.of_nat n)) (INR n).
Proof. intros n H. rewrite INR_IZR_INZ. apply dint_ok. lia. Qed.
Lemma about_add : forall x y a b ea eb m, about x a ea -> about y b eb -> Rabs (a + b) + ea + eb <= m -> 1 <= m <= 10 ^ 8 -> about (dadd x y) (a + b) (ea + eb + 3 / 10 ^ 16 * m).
Proof.
  intros x y a b ea eb m (Fx & X) (Fy & Y) B M. change real_of with val in *.
  assert (S : Rabs (val x + val y - (a + b)) <= ea + eb) by (replace (val x + val y - (a + b)) with ((val x - a) + (val y - b)) by ring; eapply Rle_trans; [apply Rabs_triang|]; lra).
  assert (T : Rabs (val x + val y) <= m) by (replace (val x + val y) with ((val x + val y - (a + b)) + (a + b)) by ring; eapply Rle_trans; [apply Rabs_triang|]; lra).
  destruct (dadd_ok x y Fx Fy) as (F & V); [apply big_below_max; lra|]. split; [exact F|]. change real_of with val. rewrite V. pose proof (rnd_about _ _ T (proj1 M)) as R.
  replace (rnd (val x + val y) - (a + b)) with ((rnd (val x + val y) - (val x + val y)) + (val x + val y - (a + b))) by ring. eapply Rle_trans; [apply Rabs_triang|]. lra.
Qed.
Lemma about_div : forall x y a b, is_double x (INR a) -> is_double y (INR b) -> (0 < b)%nat -> INR a / INR b <= 360 -> about (ddiv x y) (INR a / INR b) (12 / 10 ^ 14).
Proof.
  intros x y a b (Fa & Va) (Fb & Vb) B C. assert (P : 0 < INR b) by (apply lt_0_INR; lia). pose proof (pos_INR a) as Pa.
  assert (D : 0 <= INR a / INR b) by (apply Rmult_le_pos; [exact Pa|apply Rlt_le, Rinv_0_lt_compat; exact P]).
  destruct (ddiv_ok x y Fa) as (F & V); [rewrite Vb; lra|rewrite Va, Vb; apply big_below_max; rewrite Rabs_pos_eq; lra|].
  split; [exact F|]. change real_of with val. rewrite V, Va, Vb. eapply Rle_trans; [apply (rnd_about _ 360); [rewrite Rabs_pos_eq; lra|lra]|]. lra.
Qed.
Lemma about_mul : forall x y a b, is_double x (INR a) -> is_double y (INR b) -> (Z.of_nat (a * b) <= 10 ^ 7)%Z -> is_double (dmul x y) (INR (a * b)).
Proof.
  intros x y a b (Fa & Va) (Fb & Vb) H.
  assert (E : rnd (val x * val y) = INR (a * b)) by (rewrite Va, Vb, <- mult_INR, INR_IZR_INZ; apply rnd_int; lia).
  destruct (dmul_ok x y Fa Fb) as (F & V).
  { rewrite Va, Vb, <- mult_INR. apply big_below_max. rewrite Rabs_pos_eq by apply pos_INR. rewrite INR_IZR_INZ. apply IZR_le in H. change (IZR (10 ^ 7)) with 10000000 in H. lra. }
  split; [exact F|]. rewrite V. exact E.
Qed.

Definition dinv (ho : host) (id : Z) (P S F : nat) (alt inc : double) (ds : list dev) (s : helper double) : Prop :=
  let k := length ds in
  (exists l, run_adds ho (con_new id P S) (launch_adds S ds) = Ok (h_con s, l)) /\
  h_plane s = (k / S)%nat /\ h_orbit s = (k mod S)%nat /\ h_altitude s = alt /\ h_inclination s = inc /\
  about (h_inc s) (360 * INR F / (INR S * INR P)) (12 / 10 ^ 14) /\
  about (h_asc s) (node_degrees P S k) (INR (k / S) * (3 / 10 ^ 13)) /\
  about (h_phase s) (360 * INR (k mod S) / INR S) (INR (k mod S) * (3 / 10 ^ 13)) /\
  about (h_off s) (INR (k / S) * (360 * INR F / (INR S * INR P))) (INR (k / S) * (12 / 10 ^ 11)).

Lemma about_zero : forall e, 0 <= e -> about (dint 0) 0 e.
Proof. intros e H. destruct (dint_ok 0 ltac:(lia)) as (F & V). split; [exact F|]. change real_of with val. rewrite V. rewrite Rminus_0_r, Rabs_R0. exact H. Qed.
Lemma nat_r : forall a b, (a <= b)%nat -> INR a <= INR b.
Proof. intros. apply le_INR. assumption. Qed.
Lemma thousand : forall a, (0 < a <= 1000)%nat -> 1 <= INR a <= 1000.
Proof. intros a H. split; [apply (le_INR 1); lia|]. apply Rle_trans with (INR 1000); [apply le_INR; lia|]. rewrite INR_IZR_INZ. cbn. lra. Qed.
Lemma r360 : INR 360 = 360.
Proof. rewrite INR_IZR_INZ. reflexivity. Qed.
(** The increment of the offsets. *)
Lemma step_bound : forall P S F, sizes P S F -> 0 <= 360 * INR F / (INR S * INR P) <= 360.
Proof.
  intros P S F (HP & HS & HF). pose proof (thousand P HP) as Bp. pose proof (thousand S HS) as Bs. pose proof (pos_INR F) as F0. pose proof (le_INR F P HF) as Fp. assert (D : INR P <= INR S * INR P) by nra.
  split; [apply Rmult_le_pos; [lra|apply Rlt_le, Rinv_0_lt_compat; lra]|]. apply (Rmult_le_reg_r (INR S * INR P)); [lra|]. unfold Rdiv. rewrite Rmult_assoc, Rinv_l by lra. lra.
Qed.
Lemma frac_bound : forall a b, (0 < b <= 1000)%nat -> (a < b)%nat -> 0 <= 360 * INR a / INR b <= 360 - 36 / 100.
Proof.
  intros a b B A. pose proof (thousand b B) as Bb. pose proof (pos_INR a) as A0. assert (A1 : INR a + 1 <= INR b) by (rewrite <- S_INR; apply le_INR; lia).
  split; [apply Rmult_le_pos; [lra|apply Rlt_le, Rinv_0_lt_compat; lra]|]. apply (Rmult_le_reg_r (INR b)); [lra|]. unfold Rdiv at 1. rewrite Rmult_assoc, Rinv_l by lra. lra.
Qed.
Lemma dinv_new : forall ho id P S F alt inc, sizes P S F -> dinv ho id P S F alt inc [] (helper_new doubles id alt inc P S F).
Proof.
  intros ho id P S F alt inc Z. pose proof (step_bound P S F Z) as St. destruct Z as (HP & HS & HF). unfold dinv, helper_new, node_degrees. cbn [length h_con h_plane h_orbit h_altitude h_inclination h_inc h_asc h_phase h_off doubles a_zero a_of_nat a_mul a_div]. rewrite Nat.div_small, Nat.mod_small by lia.
  split; [eexists; reflexivity|]. do 4 (split; [reflexivity|]). split.
  - replace (360 * INR F / (INR S * INR P)) with (INR (F * 360) / INR (1 * S * P)) in * by (rewrite !mult_INR, r360; cbn [INR]; rewrite Rmult_1_l; f_equal; ring).
    apply about_div; [apply about_mul; try apply nat_about; lia|apply about_mul; [apply about_mul; try apply nat_about; lia|apply nat_about; lia|nia]|nia|apply St].
  - cbn [INR]. rewrite !Rmult_0_r, !Rmult_0_l. unfold Rdiv. rewrite !Rmult_0_l. repeat split; try (apply (about_zero 0); lra).
Qed.
Lemma about_weaken : forall x r e f, about x r e -> e <= f -> about x r f.
Proof. intros x r e f (F & H) L. split; [exact F|lra]. Qed.
Lemma below_turn : forall x r, about x r (36 / 1000) -> r <= 360 - 36 / 100 -> dlt x (dint (Z.of_nat 360)) = true.
Proof. intros x r (F & H) L. destruct (nat_about 360 ltac:(lia)) as (F3 & V3). rewrite r360 in V3. apply dlt_ok; [exact F|exact F3|]. rewrite V3. change real_of with val in H. apply Rabs_le_inv in H. lra. Qed.

Lemma dinv_step : forall debug ho id P S F alt inc ds s d, sizes P S F -> dinv ho id P S F alt inc ds s -> (length ds < P * S)%nat ->
  exists s' a o, launch doubles debug ho s d = Ok (s', (a, o)) /\
    a = sat_make ho id (Z.of_nat (length ds / S)) (Z.of_nat (length ds mod S)) /\ o_inclination o = inc /\ o_altitude o = alt /\
    about (o_ascending_node o) (node_degrees P S (length ds)) (1 / 10 ^ 9) /\ about (o_phase o) (phase_degrees P S F (length ds)) (2 / 10 ^ 7) /\
    dinv ho id P S F alt inc (ds ++ [d]) s'.
Proof.
  intros debug ho id P S F alt inc ds s d Z (R & Ep & Eo & Ealt & Einc & Ei & Ea & Eph & Eof) Hk. pose proof (step_bound P S F Z) as St. destruct Z as (HP & HS & HF). destruct R as [l R].
  set (k := length ds) in *. destruct (flat_slot P S k Hk) as [Kp Ks].
  destruct (run_adds_wf _ _ _ _ _ (new_wf id P S) R) as (W & Cid & CP & CS & _). cbn in Cid, CP, CS.
  assert (Fr : con_at (con_grid (h_con s)) (k / S) (k mod S) = Ok None).
  { rewrite (run_new_at _ _ _ _ _ _ _ R _ _ Kp Ks). f_equal. apply slot_fresh; [lia|auto]. }
  pose proof (add_free_ok ho (h_con s) (k / S) (k mod S) d Fr) as Add.
  pose proof (thousand P HP) as Bp. pose proof (thousand S HS) as Bs. pose proof (pos_INR (k / S)) as P0. pose proof (pos_INR (k mod S)) as S0.
  assert (P1 : INR (k / S) <= 1000) by (apply Rle_trans with (INR P); [apply le_INR; lia|lra]). assert (S1 : INR (k mod S) <= 1000) by (apply Rle_trans with (INR S); [apply le_INR; lia|lra]).
  pose proof (frac_bound (k / S) P HP Kp) as Fa. pose proof (frac_bound (k mod S) S HS Ks) as Fp. change (360 * INR (k / S) / INR P) with (node_degrees P S k) in Fa.
  set (step := 360 * INR F / (INR S * INR P)) in *. assert (Off : 0 <= INR (k / S) * step <= 360000) by (split; [apply Rmult_le_pos; lra|replace 360000 with (1000 * 360) by lra; apply Rmult_le_compat; lra]).
  assert (Ph : a_ltb doubles (h_phase s) (dint (Z.of_nat 360)) = true) by (apply (below_turn _ (360 * INR (k mod S) / INR S)); [eapply about_weaken; [exact Eph|lra]|lra]).
  assert (As : a_ltb doubles (h_asc s) (dint (Z.of_nat 360)) = true) by (apply (below_turn _ (node_degrees P S k)); [eapply about_weaken; [exact Ea|lra]|lra]).
  unfold launch. cbv zeta. change (a_of_nat doubles) with (fun n => dint (Z.of_nat n)). cbn beta. rewrite Ph, As, Ep, Eo, CP.
  rewrite (proj2 (Nat.leb_gt P (k / S)) Kp). cbn [andb negb abort_unless rbind].
  assert (AI : assert_if debug true = Ok tt) by (destruct debug; reflexivity). rewrite AI. cbn [rbind].
  set (c' := mkCon _ _ _ _ _) in Add.
  assert (R' : exists l', run_adds ho (con_new id P S) (launch_adds S (ds ++ [d])) = Ok (c', l')).
  { rewrite launch_adds_snoc, run_adds_app, R. cbn [rbind run_adds]. fold k. rewrite Add. cbn [rbind]. eauto. }
  rewrite Add. cbn [rbind]. rewrite Cid. assert (CP' : con_planes c' = P) by exact CP. assert (CS' : con_plane_size c' = S) by exact CS. rewrite CS', CP'.
  do 3 eexists. split; [reflexivity|]. split; [reflexivity|].
  assert (Len : length (ds ++ [d]) = (k + 1)%nat) by (rewrite app_length; reflexivity).
  cbn [o_inclination o_altitude o_ascending_node o_phase]. split; [exact Einc|]. split; [exact Ealt|]. split; [eapply about_weaken; [exact Ea|lra]|].
  assert (D360 : forall n, (0 < n <= 1000)%nat -> about (ddiv (dint (Z.of_nat 360)) (dint (Z.of_nat n))) (360 / INR n) (12 / 10 ^ 14)).
  { intros n Hn. pose proof (thousand n Hn) as Bn. rewrite <- r360. apply about_div; [apply nat_about; lia|apply nat_about; lia|lia|]. rewrite r360. apply (Rmult_le_reg_r (INR n)); [lra|]. unfold Rdiv. rewrite Rmult_assoc, Rinv_l by lra. lra. }
  split.
  { cbn [doubles a_add]. unfold phase_degrees. fold step. eapply about_weaken; [eapply (about_add _ _ _ _ _ _ (37 * 10 ^ 4)); [exact Eph|exact Eof| |lra]|].
    - rewrite Rabs_pos_eq by lra. lra.
    - lra. }
  unfold dinv. rewrite Len. destruct (div_mod_succ S k ltac:(lia)) as [D1 D2]. cbn zeta.
  destruct (k mod S + 1 =? S)%nat eqn:B.
  - apply Nat.eqb_eq in B. destruct (D1 B) as [E1 E2]. rewrite E1, E2. cbn [h_con h_plane h_orbit h_altitude h_inclination h_inc h_asc h_phase h_off].
    split; [exact R'|]. do 2 (split; [reflexivity|]). split; [exact Ealt|]. split; [exact Einc|]. split; [exact Ei|]. split; [|split].
    + unfold node_degrees. rewrite E1, plus_INR. cbn [INR doubles a_add a_div].
      replace (360 * (INR (k / S) + 1) / INR P) with (node_degrees P S k + 360 / INR P) by (unfold node_degrees; field; lra). pose proof (D360 P HP) as St'. assert (360 / INR P <= 360) by (apply (Rmult_le_reg_r (INR P)); [lra|]; unfold Rdiv; rewrite Rmult_assoc, Rinv_l by lra; lra). assert (0 <= 360 / INR P) by (apply Rmult_le_pos; [lra|apply Rlt_le, Rinv_0_lt_compat; lra]).
      assert (Sum : node_degrees P S k + 360 / INR P <= 361). { replace (node_degrees P S k + 360 / INR P) with (360 * (INR (k / S) + 1) / INR P) by (unfold node_degrees; field; lra). assert (INR (k / S) + 1 <= INR P) by (rewrite <- S_INR; apply le_INR; lia). apply (Rmult_le_reg_r (INR P)); [lra|]. unfold Rdiv. rewrite Rmult_assoc, Rinv_l by lra. lra. }
      eapply about_weaken; [eapply (about_add _ _ _ _ _ _ 362); [exact Ea|exact St'| |lra]|lra]. rewrite Rabs_pos_eq by lra. lra.
    + cbn [doubles a_zero INR]. rewrite Rmult_0_r, Rmult_0_l. unfold Rdiv. rewrite Rmult_0_l. apply about_zero. lra.
    + rewrite plus_INR. cbn [INR doubles a_add]. rewrite Rmult_plus_distr_r, Rmult_1_l. eapply about_weaken; [eapply (about_add _ _ _ _ _ _ (37 * 10 ^ 4)); [exact Eof|exact Ei| |lra]|].
      * fold step. rewrite Rabs_pos_eq by lra. lra.
      * lra.
  - apply Nat.eqb_neq in B. destruct (D2 B) as [E1 E2]. rewrite E1, E2. cbn [h_con h_plane h_orbit h_altitude h_inclination h_inc h_asc h_phase h_off].
    split; [exact R'|]. do 2 (split; [reflexivity|]). split; [exact Ealt|]. split; [exact Einc|]. split; [exact Ei|]. split; [|split; [|exact Eof]].
    + unfold node_degrees in *. rewrite E1. exact Ea.
    + rewrite plus_INR. cbn [INR doubles a_add a_div]. replace (360 * (INR (k mod S) + 1) / INR S) with (360 * INR (k mod S) / INR S + 360 / INR S) by (field; lra). pose proof (D360 S HS) as St'.
      assert (0 <= 360 / INR S) by (apply Rmult_le_pos; [lra|apply Rlt_le, Rinv_0_lt_compat; lra]).
      assert (Sum : 360 * INR (k mod S) / INR S + 360 / INR S <= 361). { replace (360 * INR (k mod S) / INR S + 360 / INR S) with (360 * (INR (k mod S) + 1) / INR S) by (field; lra). assert (INR (k mod S) + 1 <= INR S) by (rewrite <- S_INR; apply le_INR; lia). apply (Rmult_le_reg_r (INR S)); [lra|]. unfold Rdiv. rewrite Rmult_assoc, Rinv_l by lra. lra. }
      eapply about_weaken; [eapply (about_add _ _ _ _ _ _ 362); [exact Eph|exact St'| |lra]|lra]. rewrite Rabs_pos_eq by lra. lra.
Qed.
