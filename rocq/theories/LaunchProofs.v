From Coq Require Import ZArith QArith Qfield List Lia Bool Arith.
From Coq.Floats Require Import SpecFloat.
From Verif Require Import Base SatAddrModel SatAddrProofs ConstellationModel ConstellationSpec
  ConstellationProofs LaunchModel LaunchSpec.
Import ListNotations.
Open Scope nat_scope.

(** Slots in launch order. *)
Definition launch_adds (S : nat) (ds : list dev) : list (nat * nat * dev) :=
  map (fun kd => (fst kd / S, fst kd mod S, snd kd)) (combine (seq 0 (length ds)) ds).

Lemma combine_snoc : forall A B (l : list A) (l' : list B) a b, length l = length l' ->
  combine (l ++ [a]) (l' ++ [b]) = combine l l' ++ [(a, b)].
Proof.
  induction l; destruct l'; simpl; intros; try discriminate; auto. f_equal. apply IHl. lia.
Qed.

Lemma launch_adds_snoc : forall S ds d,
  launch_adds S (ds ++ [d]) = launch_adds S ds ++ [(length ds / S, length ds mod S, d)].
Proof.
  intros. unfold launch_adds. rewrite app_length. simpl. rewrite Nat.add_1_r, seq_S.
  rewrite combine_snoc by (rewrite seq_length; auto). rewrite map_app. reflexivity.
Qed.

Lemma launch_adds_length : forall S ds, length (launch_adds S ds) = length ds.
Proof.
  intros. unfold launch_adds. rewrite map_length, combine_length, seq_length. lia.
Qed.

Lemma run_adds_app : forall h l1 c l2,
  run_adds h c (l1 ++ l2) =
  (do (c1, a1) <- run_adds h c l1 ; do (c2, a2) <- run_adds h c1 l2 ; Ok (c2, a1 ++ a2)).
Proof.
  induction l1 as [|[[p i] d] r IH]; intros c l2; simpl.
  - destruct (run_adds h c l2) as [[c2 a2]| | |]; reflexivity.
  - destruct (add_satellite h c p i d true) as [[c1 a1]| | |]; simpl; auto.
    rewrite IH. destruct (run_adds h c1 r) as [[c3 a3]| | |]; simpl; auto.
    destruct (run_adds h c3 l2) as [[c4 a4]| | |]; reflexivity.
Qed.

Lemma launch_adds_in : forall S ds p i d, In (p, i, d) (launch_adds S ds) ->
  exists k, k < length ds /\ p = k / S /\ i = k mod S.
Proof.
  intros S ds p i d H. unfold launch_adds in H. apply in_map_iff in H.
  destruct H as ([k d'] & E & H). apply in_combine_l in H. apply in_seq in H.
  simpl in E. inversion E; subst. exists k. intuition lia.
Qed.

Lemma slot_fresh : forall S ds k, 0 < S -> length ds <= k ->
  added_at (launch_adds S ds) (k / S) (k mod S) = None.
Proof.
  intros S ds k HS Hk. apply added_at_not_in. intros H. apply in_map_iff in H.
  destruct H as ([[p i] d] & E & H). apply launch_adds_in in H. destruct H as (j & Hj & -> & ->).
  unfold slot_of in E; simpl in E. inversion E.
  pose proof (Nat.div_mod j S ltac:(lia)) as Ej. pose proof (Nat.div_mod k S ltac:(lia)) as Ek.
  rewrite H0, H1 in Ej. lia.
Qed.

Lemma q_pos : forall n, 0 < n -> (0 < q n)%Q.
Proof. intros. unfold q. rewrite <- (Zlt_Qlt 0). lia. Qed.

Lemma q_nz : forall n, 0 < n -> ~ (q n == 0)%Q.
Proof. intros. pose proof (q_pos n H). intros E. rewrite E in H0. discriminate. Qed.

Lemma q_S : forall n, (q (S n) == q n + 1)%Q.
Proof. intros. unfold q. rewrite Nat2Z.inj_succ. unfold Z.succ. rewrite inject_Z_plus. reflexivity. Qed.

Lemma q_lt : forall a b, a < b -> (q a < q b)%Q.
Proof. intros. unfold q. rewrite <- Zlt_Qlt. lia. Qed.

(** State after launching [ds]. *)
Definition linv (ho : host) (id : Z) (P S F : nat) (alt inc : Q) (ds : list dev) (s : helper Q) : Prop :=
  (exists l, run_adds ho (con_new id P S) (launch_adds S ds) = Ok (h_con s, l)) /\
  h_plane s = length ds / S /\ h_orbit s = length ds mod S /\
  h_altitude s = alt /\ h_inclination s = inc /\
  (h_inc s == q 360 * q F / (q S * q P))%Q /\
  (h_asc s == walker_node P S (length ds))%Q /\
  (h_phase s == q 360 * q (length ds mod S) / q S)%Q /\
  (h_off s == q (length ds / S) * (q 360 * q F / (q S * q P)))%Q.

Lemma linv_new : forall ho id P S F alt inc, 0 < P -> 0 < S ->
  linv ho id P S F alt inc [] (helper_new rational id alt inc P S F).
Proof.
  intros ho id P S F alt inc HP HS. unfold linv, walker_node, helper_new; cbn [length].
  rewrite Nat.div_small, Nat.mod_small by lia.
  pose proof (q_nz P HP). pose proof (q_nz S HS).
  split; [eexists; reflexivity|].
  repeat split; cbn [h_inc h_asc h_phase h_off]; change (a_of_nat rational) with q;
    cbn [rational a_mul a_div a_zero]; change (q 0) with 0%Q; change (q 1) with 1%Q; field; auto.
Qed.

Lemma div_mod_succ : forall S k, 0 < S ->
  (k mod S + 1 = S -> (k + 1) / S = k / S + 1 /\ (k + 1) mod S = 0) /\
  (k mod S + 1 <> S -> (k + 1) / S = k / S /\ (k + 1) mod S = k mod S + 1).
Proof.
  intros S k HS. pose proof (Nat.div_mod k S ltac:(lia)) as E.
  pose proof (Nat.mod_upper_bound k S ltac:(lia)) as U. split; intros H.
  - assert (E2 : k + 1 = (k / S + 1) * S) by nia. rewrite E2.
    rewrite Nat.div_mul, Nat.mod_mul by lia. auto.
  - assert (E2 : k + 1 = (k / S) * S + (k mod S + 1)) by nia. rewrite E2.
    apply flat_back. lia.
Qed.

Lemma ltb_rational : forall x y, (x < y)%Q -> a_ltb rational x y = true.
Proof.
  intros. simpl. apply negb_true_iff. destruct (Qle_bool y x) eqn:E; [|reflexivity].
  apply Qle_bool_iff in E. exfalso. eapply Qlt_not_le; eauto.
Qed.

Lemma ltb_rational_false : forall x y, (y <= x)%Q -> a_ltb rational x y = false.
Proof. intros. simpl. apply Qle_bool_iff in H. rewrite H. reflexivity. Qed.

Lemma frac_lt : forall a b, 0 < b -> a < b -> (q 360 * q a / q b < q 360)%Q.
Proof.
  intros a b Hb H. apply Qlt_shift_div_r; [apply q_pos; auto|].
  apply Qmult_lt_l; [reflexivity|]. apply q_lt; auto.
Qed.

Lemma linv_step : forall debug ho id P S F alt inc ds s d,
  0 < P -> 0 < S -> linv ho id P S F alt inc ds s -> length ds < P * S ->
  exists s' a o, launch rational debug ho s d = Ok (s', (a, o)) /\
    a = sat_make ho id (Z.of_nat (length ds / S)) (Z.of_nat (length ds mod S)) /\
    o_inclination o = inc /\ o_altitude o = alt /\
    (o_ascending_node o == walker_node P S (length ds))%Q /\
    (o_phase o == walker_phase P S F (length ds))%Q /\
    linv ho id P S F alt inc (ds ++ [d]) s'.
Proof.
  intros debug ho id P S F alt inc ds s d HP HS (R & Ep & Eo & Ealt & Einc & Ei & Ea & Eph & Eof) Hk.
  destruct R as [l R].
  set (k := length ds) in *.
  destruct (flat_slot P S k Hk) as [Kp Ks].
  destruct (run_adds_wf _ _ _ _ _ (new_wf id P S) R) as (W & Cid & CP & CS & _). cbn in Cid, CP, CS.
  assert (Fr : con_at (con_grid (h_con s)) (k / S) (k mod S) = Ok None).
  { rewrite (run_new_at _ _ _ _ _ _ _ R _ _ Kp Ks). f_equal. apply slot_fresh; auto. }
  pose proof (add_free_ok ho (h_con s) (k / S) (k mod S) d Fr) as Add.
  assert (Ph : a_ltb rational (h_phase s) (q 360) = true).
  { apply ltb_rational. rewrite Eph. apply frac_lt; auto. }
  assert (As : a_ltb rational (h_asc s) (q 360) = true).
  { apply ltb_rational. rewrite Ea. apply frac_lt; auto. }
  unfold launch. cbv zeta.
  change (a_of_nat rational) with q.
  rewrite Ph, As, Ep, Eo, CP.
  rewrite (proj2 (Nat.leb_gt P (k / S)) Kp). cbn [andb negb abort_unless rbind].
  assert (AI : assert_if debug true = Ok tt) by (destruct debug; reflexivity).
  rewrite AI. cbn [rbind].
  set (c' := mkCon _ _ _ _ _) in Add.
  assert (R' : exists l', run_adds ho (con_new id P S) (launch_adds S (ds ++ [d])) = Ok (c', l')).
  { rewrite launch_adds_snoc, run_adds_app, R. cbn [rbind run_adds]. fold k. rewrite Add.
    cbn [rbind]. eauto. }
  rewrite Add. cbn [rbind]. rewrite Cid.
  assert (CP' : con_planes c' = P) by exact CP. assert (CS' : con_plane_size c' = S) by exact CS.
  rewrite CS', CP'.
  do 3 eexists. split; [reflexivity|]. split; [reflexivity|].
  pose proof (q_nz P HP) as NP. pose proof (q_nz S HS) as NS.
  assert (Len : length (ds ++ [d]) = k + 1) by (rewrite app_length; reflexivity).
  cbn [o_inclination o_altitude o_ascending_node o_phase].
  split; [exact Einc|]. split; [exact Ealt|]. split; [exact Ea|].
  split.
  { cbn [rational a_add]. unfold walker_phase. rewrite Eph, Eof. reflexivity. }
  unfold linv. rewrite Len.
  destruct (div_mod_succ S k HS) as [D1 D2].
  destruct (k mod S + 1 =? S) eqn:B.
  - apply Nat.eqb_eq in B. destruct (D1 B) as [-> ->].
    cbn [h_con h_plane h_orbit h_altitude h_inclination h_inc h_asc h_phase h_off].
    split; [exact R'|]. repeat split; auto.
    + cbn [rational a_add a_div]. rewrite Ea. unfold walker_node.
      destruct (D1 B) as [-> _].
      rewrite Nat.add_1_r, (q_S (k / S)).
      field; auto.
    + cbn [rational a_add]. rewrite Eof, Ei. rewrite Nat.add_1_r, (q_S (k / S)). field; auto.
  - apply Nat.eqb_neq in B. destruct (D2 B) as [E1 E2].
    cbn [h_con h_plane h_orbit h_altitude h_inclination h_inc h_asc h_phase h_off].
    split; [exact R'|]. rewrite E1, E2. repeat split; auto.
    + rewrite Ea. unfold walker_node. rewrite E1. reflexivity.
    + cbn [rational a_add a_div]. rewrite Eph. rewrite (Nat.add_1_r (k mod S)), (q_S (k mod S)). field; auto.
Qed.

Lemma launch_all_snoc : forall A (O : angles A) debug ho ds d s,
  launch_all O debug ho s (ds ++ [d]) =
  (do (s1, l) <- launch_all O debug ho s ds ;
   do (s2, x) <- launch O debug ho s1 d ; Ok (s2, l ++ [x])).
Proof.
  induction ds as [|e r IH]; intros d s; simpl.
  - destruct (launch O debug ho s d) as [[s2 x]| | |]; reflexivity.
  - destruct (launch O debug ho s e) as [[s1 x1]| | |]; simpl; auto.
    rewrite IH. destruct (launch_all O debug ho s1 r) as [[s2 l2]| | |]; simpl; auto.
    destruct (launch O debug ho s2 d) as [[s3 x3]| | |]; reflexivity.
Qed.

Definition launched_right (ho : host) (id : Z) (P S F : nat) (alt inc : Q) (k : nat)
    (x : sat_address * orbit Q) : Prop :=
  fst x = sat_make ho id (Z.of_nat (k / S)) (Z.of_nat (k mod S)) /\
  o_inclination (snd x) = inc /\ o_altitude (snd x) = alt /\
  (o_ascending_node (snd x) == walker_node P S k)%Q /\
  (o_phase (snd x) == walker_phase P S F k)%Q.

Lemma launch_all_inv : forall debug ho id P S F alt inc ds,
  0 < P -> 0 < S -> length ds <= P * S ->
  exists s outs, launch_all rational debug ho (helper_new rational id alt inc P S F) ds = Ok (s, outs) /\
    linv ho id P S F alt inc ds s /\ length outs = length ds /\
    forall k x, nth_error outs k = Some x -> launched_right ho id P S F alt inc k x.
Proof.
  intros debug ho id P S F alt inc ds HP HS. induction ds as [|d ds IH] using rev_ind; intros L.
  - do 2 eexists. split; [reflexivity|]. split; [apply linv_new; auto|]. split; [reflexivity|].
    intros [|k] x H; discriminate.
  - rewrite app_length in L; simpl in L. destruct IH as (s & outs & E & I & Lo & H); [lia|].
    destruct (linv_step debug ho id P S F alt inc ds s d HP HS I ltac:(lia))
      as (s' & a & o & E' & Ha & Hi & Hal & Hn & Hp & I').
    exists s', (outs ++ [(a, o)]). rewrite launch_all_snoc, E. simpl. rewrite E'. simpl.
    split; [reflexivity|]. split; [exact I'|]. split; [rewrite !app_length; simpl; lia|].
    intros k x Hx. destruct (lt_dec k (length outs)) as [K|K].
    + rewrite nth_error_app1 in Hx by auto. auto.
    + rewrite nth_error_app2 in Hx by lia.
      destruct (k - length outs) eqn:Q; [|destruct n; discriminate]. simpl in Hx. inversion Hx; subst.
      assert (k = length ds) by lia. subst k. unfold launched_right; simpl. auto.
Qed.

(** Launching one more than fits. *)
Lemma overlaunch : forall debug ho id P S F alt inc ds s d,
  0 < P -> 0 < S -> linv ho id P S F alt inc ds s -> length ds = P * S ->
  launch rational debug ho s d = if debug then Assert else UB.
Proof.
  intros debug ho id P S F alt inc ds s d HP HS (R & Ep & Eo & Ealt & Einc & Ei & Ea & Eph & Eof) L.
  destruct R as [l R].
  destruct (run_adds_wf _ _ _ _ _ (new_wf id P S) R) as (W & Cid & CP & CS & _). cbn in Cid, CP, CS.
  rewrite L in *. rewrite Nat.div_mul in * by lia. rewrite Nat.mod_mul in * by lia.
  unfold launch. cbv zeta. change (a_of_nat rational) with q.
  rewrite Ep, Eo. change (0 <? 0) with false. rewrite andb_false_r. cbn [negb abort_unless rbind].
  pose proof (q_nz P HP) as NP. pose proof (q_nz S HS) as NS.
  assert (As : a_ltb rational (h_asc s) (q 360) = false).
  { apply ltb_rational_false. rewrite Ea. unfold walker_node. rewrite Nat.div_mul by lia.
    setoid_replace (q 360 * q P / q P)%Q with (q 360) by (field; auto). apply Qle_refl. }
  assert (Ph : a_ltb rational (h_phase s) (q 360) = true).
  { apply ltb_rational. rewrite Eph. change (q 0) with 0%Q.
    setoid_replace (q 360 * 0 / q S)%Q with 0%Q by (field; auto). reflexivity. }
  rewrite As, Ph. destruct debug; cbn [assert_if assert_ rbind]; [reflexivity|].
  unfold add_satellite. rewrite (con_at_out P S); [reflexivity| |lia].
  unfold wf in W. rewrite CP, CS in W. exact W.
Qed.
