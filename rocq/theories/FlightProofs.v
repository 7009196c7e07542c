(** From the world a script leaves to a prepared mission. *)
From Coq Require Import ZArith QArith List Lia Bool Arith.
From Verif Require Import Base SatAddrModel DeviceSpec SatAddrProofs ConstellationModel ConstellationSpec ConstellationProofs ConstellationProps LaunchModel LaunchSpec
  LaunchProofs ChannelModel IslModel IslSpec IslProofs IslProps HelpersProps GeoTagModel GeoTagSpec GeoTagRoute SystemProps DownSpec RelayModel RelayProps JourneySpec
  SetupModel SetupSpec SetupProofs SetupRun SetupProps InstanceModel InstanceSpec InstanceProofs InstanceProps FlightModel FlightSpec.
Import ListNotations.
Open Scope nat_scope.

Section Exact.
Variable debug : bool.
Variable ho : host.
Variable plans : nat -> plan.
Hypothesis P_ok : forall h, 0 < pl_P (plans h) /\ 0 < pl_S (plans h).
Hypothesis id_ok : forall h, (0 < pl_id (plans h) < 65536)%Z.
Variable b : before.
Variable first : Z.

Notation inv := (inv ho plans b first).
Notation good := (good plans b).
Notation launched_by := (launched_by b).

(** No links are asked for: none are made. *)
Lemma no_links : forall l cs cons ty prs w w', inv cs cons ty (install_pairs 0 prs) w -> good cs -> holds (length cons) l ->
  setup rational debug ho w l = Ok w' -> asked cs (length cons) ty l = [] ->
  inv (cs ++ calls (length cons) ty l) (told l cons) (last_type ty l) (install_pairs 0 prs) w'.
Proof.
  intros l cs cons ty prs w w' I G H E A. destruct (run_only debug ho plans P_ok id_ok b first l _ _ _ _ _ _ I G H E) as (N & G2 & F).
  destruct (run_ok debug ho plans P_ok id_ok b first l _ _ _ _ _ I H N G2 F) as (w2 & nets & E2 & A2 & I2).
  rewrite E in E2. injection E2 as <-. rewrite A in A2. inversion A2; subst. cbn [concat] in I2. rewrite app_nil_r in I2. exact I2.
Qed.

(** Links are asked for once: they are those of the grid, between the nodes of the devices. *)
Lemma links_run : forall l cs cons ty w w' cs0 ns h, inv cs cons ty (install_pairs 0 []) w -> good cs -> holds (length cons) l ->
  setup rational debug ho w l = Ok w' -> asked cs (length cons) ty l = [(cs0, ns, h)] ->
  exists con ids g, (exists addrs, run_adds ho (con_new (pl_id (plans h)) (pl_P (plans h)) (pl_S (plans h))) (launch_adds (pl_S (plans h)) (launched_by h cs0)) = Ok (con, addrs)) /\
    install_grid ids con = Ok g /\ length ids = pl_P (plans h) * pl_S (plans h) /\
    (forall x, In x g -> In (fst x) (launched_by h cs0) /\ In (snd x) (launched_by h cs0)) /\
    inv (cs ++ calls (length cons) ty l) (told l cons) (last_type ty l) (install_pairs 0 (map (fun x => (node_of cs0 (fst x), node_of cs0 (snd x))) g)) w'.
Proof.
  induction l as [|o l IH]; intros cs cons ty w w' cs0 ns h I G H E A; [discriminate A|].
  apply holds_cons in H. destruct H as [H1 H2]. cbn [setup] in E.
  destruct (setup_step rational debug ho w o) as [w1| | |] eqn:E1; try discriminate E. cbn [rbind] in E.
  destruct (step_only debug ho plans P_ok id_ok b first o _ _ _ _ _ _ I G H1 E1) as (N & G1 & F1).
  rewrite asked_cons in A. rewrite (calls_cons o l), (told_cons o l), (last_cons o l ty), app_assoc.
  destruct (asked cs (length cons) ty [o]) as [|a [|a2 r]] eqn:Ao; cbn [app] in A.
  - assert (I1 : inv (cs ++ calls (length cons) ty [o]) (told [o] cons) (last_type ty [o]) (install_pairs 0 []) w1).
    { apply (no_links [o] cs cons ty [] w w1 I G H1); [cbn [setup]; rewrite E1; reflexivity|exact Ao]. }
    rewrite <- (told_length plans P_ok id_ok o cons H1) in A, H2 |- *. exact (IH _ _ _ _ _ _ _ _ I1 G1 H2 E A).
  - injection A as -> A. destruct o as [|t|[n|] c h'|ns' c h'|ns' h'|ns' h']; cbn in Ao; try discriminate Ao. injection Ao as <- <- <-.
    cbn [calls told last_type more_chans setup_step] in *. rewrite app_nil_r in *.
    pose proof (isl_only ho plans P_ok id_ok b first _ _ _ _ _ _ _ _ I G E1) as (L & Ln & _). rewrite (sats_length plans P_ok id_ok) in L.
    unfold install_isl in E1. destruct (first_ids ho w ns') as [ids| | |] eqn:Ei; try discriminate E1. cbn [rbind] in E1.
    destruct (install_grid ids (h_con (sw_helpers w h'))) as [g| | |] eqn:Eg; try discriminate E1. cbn [rbind] in E1.
    destruct (first_ids_ok ho plans P_ok id_ok b first _ _ _ _ _ _ _ I Ei) as (Li & _ & _).
    destruct (grid_net ho plans P_ok id_ok b first _ _ _ _ _ h' ids I L ltac:(lia) (grid_same _ _ _ Eg)) as (g' & Eg' & Mem & _). rewrite Eg in Eg'. injection Eg' as <-.
    destruct (pairs_ok ho plans P_ok id_ok b first h' g _ _ _ _ _ I) as (w1' & Ew & I1 & _); [exists 0; reflexivity|exact Mem|].
    rewrite E1 in Ew. injection Ew as <-. cbn [install_pairs app length] in I1. change (0 / 2) with 0 in I1.
    exists (h_con (sw_helpers w h')), ids, g. split; [exact (help_run ho plans b first _ _ _ _ _ h' I)|]. split; [exact Eg|]. split; [lia|]. split; [exact Mem|].
    exact (no_links l _ _ _ _ w1 w' I1 G H2 E A).
  - exfalso. injection A as _ A. destruct o as [|t|[n|] c h'|ns' c h'|ns' h'|ns' h']; cbn in Ao; discriminate Ao.
Qed.
End Exact.

Lemma places_app : forall B (f : B -> bool) l l' from, places f from (l ++ l') = places f from l ++ places f (from + length l) l'.
Proof.
  induction l as [|x l IH]; intros l' from; cbn [places app length]; [rewrite Nat.add_0_r; reflexivity|].
  rewrite IH, <- app_assoc. do 3 f_equal. lia.
Qed.

Lemma nth_launch : forall S ds k, nth_error (launch_adds S ds) k = option_map (fun d => (k / S, k mod S, d)) (nth_error ds k).
Proof.
  intros S ds k. unfold launch_adds. rewrite nth_error_map.
  assert (E : nth_error (combine (seq 0 (length ds)) ds) k = option_map (fun d => (k, d)) (nth_error ds k)).
  { change k with (0 + k) at 2. generalize 0 as s. revert k. induction ds as [|d ds IH]; intros k s; [destruct k; reflexivity|]. cbn [length seq combine].
    destruct k as [|k]; [cbn; rewrite Nat.add_0_r; reflexivity|]. cbn [nth_error]. rewrite IH. replace (Datatypes.S s + k) with (s + Datatypes.S k) by lia. reflexivity. }
  rewrite E. destruct (nth_error ds k); reflexivity.
Qed.

(** The strategy looks at addresses only, not at the names of the nodes. *)
Lemma react_renamed : forall nw nw' ho self self' nhs rq, nw_planes nw = nw_planes nw' -> nw_size nw = nw_size nw' -> nw_addr nw self = nw_addr nw' self' ->
  (forall f, sat_address_of nw self f = sat_address_of nw' self' f) ->
  after_receive_interest nw ho self nhs rq = after_receive_interest nw' ho self' nhs rq.
Proof.
  intros nw nw' ho self self' nhs rq EP ES EA EF.
  assert (Fm : forall t a i f, face_matches nw ho self t a i f = face_matches nw' ho self' t a i f).
  { intros t a i f. unfold face_matches. rewrite EF, EP, ES. reflexivity. }
  assert (Rf : forall t a i l, rfind (face_matches nw ho self t a i) l = rfind (face_matches nw' ho self' t a i) l).
  { intros t a i l. induction l as [|f l IH]; [reflexivity|]. cbn [rfind]. rewrite Fm, IH. reflexivity. }
  unfold after_receive_interest. rewrite EA, EP, ES. destruct (rq_sup rq); try reflexivity;
    destruct (rq_tag rq) as [[[? ?] ?]|]; try reflexivity; destruct (has_net_device (rq_ingress rq)); try reflexivity; destruct (nw_addr nw' self'); try reflexivity; rewrite Rf; reflexivity.
Qed.

Section Fleet.
Variable debug : bool.
Variable ho : host.
Variable plans : nat -> plan.
Hypothesis plans_ok : SetupSpec.proper plans.
Variable b : before.
Variable first : Z.
Variable t0 : nat.
Variable l : list sop.
Hypothesis l_holds : holds 0 l.
Variable w : world Q.
Hypothesis w_ok : setup rational debug ho (start plans b first t0) l = Ok w.
Variables h c : nat.
Hypothesis fleet : one_fleet b t0 l h c.

Notation cs := (calls 0 t0 l).
Notation ms := (marks (b_pos b) [] (calls 0 t0 l)).
Notation D := (launches b t0 l h).
Notation P := (pl_P (plans h)).
Notation S := (pl_S (plans h)).
Notation id := (pl_id (plans h)).
Definition the_con : constellation := h_con (sw_helpers w h).

Let P_ok : forall h, 0 < pl_P (plans h) /\ 0 < pl_S (plans h).
Proof. intros h'. destruct (plans_ok h') as (H1 & H2 & _). auto. Qed.
Let id_ok : forall h, (0 < pl_id (plans h) < 65536)%Z.
Proof. intros h'. apply (plans_ok h'). Qed.

Lemma f_links : exists ids g addrs,
  run_adds ho (con_new id P S) (launch_adds S D) = Ok (the_con, addrs) /\ install_grid ids the_con = Ok g /\ length ids = P * S /\ length D = P * S /\
  (forall x, In x g -> In (fst x) D /\ In (snd x) D) /\
  SetupProofs.inv ho plans b first cs (told l []) (last_type t0 l) (install_pairs 0 (map (fun x => (node_of cs (fst x), node_of cs (snd x))) g)) w.
Proof.
  destruct (of_links _ _ _ _ _ fleet) as (cs0 & ns & A).
  destruct (links_run debug ho plans P_ok id_ok b first l [] [] t0 _ _ cs0 ns h (start_inv ho plans P_ok b first t0) (good_nil _ _) l_holds w_ok A) as (con & ids & g & (addrs & R) & Eg & Li & Mem & I).
  assert (Ia : In (cs0, ns, h) (asked [] 0 t0 l)) by (rewrite A; left; reflexivity).
  destruct (i_full debug ho plans plans_ok b first t0 l l_holds w w_ok _ Ia) as [Fu Le]. cbn [fst snd] in Fu, Le.
  destruct (asked_prefix _ _ _ _ _ Ia) as (r & E). cbn [app fst] in E.
  assert (Ld : length D = P * S) by (rewrite <- Le; symmetry; apply (sats_length plans P_ok id_ok)).
  assert (L0 : length (launched_by b h cs0) = P * S).
  { rewrite <- (sats_length plans P_ok id_ok), Fu. exact Le. }
  assert (Pre : exists more, D = launched_by b h cs0 ++ more).
  { unfold launches, launched_by, mk. rewrite E, marks_app, places_app. eauto. }
  destruct Pre as [more Pre]. assert (more = []) by (apply length_zero_iff_nil; rewrite Pre, app_length in Ld; lia). subst more. rewrite app_nil_r in Pre.
  rewrite <- Pre in R, Mem. destruct (help_run ho plans b first _ _ _ _ _ h I) as [addrs' R']. cbn [app length] in R', I. change (launched_by b h cs) with D in R'.
  fold the_con in R'. rewrite R in R'. injection R' as -> ->.
  exists ids, g, addrs'. split; [exact R|]. split; [exact Eg|]. split; [exact Li|]. split; [exact Ld|]. split; [exact Mem|].
  assert (En : map (fun x => (node_of cs (fst x), node_of cs (snd x))) g = map (fun x => (node_of cs0 (fst x), node_of cs0 (snd x))) g).
  { apply map_ext_in. intros [u v] X. apply Mem in X. cbn [fst snd] in *.
    assert (Eq : forall k, In k D -> node_of cs k = node_of cs0 k).
    { intros k K. rewrite Pre in K. apply launched_in in K. destruct K as (cl & K & _). apply mk_nth in K. unfold node_of. rewrite K, E, nth_error_app1, K; [reflexivity|]. apply nth_error_Some. congruence. }
    rewrite !Eq by tauto. reflexivity. }
  rewrite En. exact I.
Qed.

Lemma f_size : length D = P * S.
Proof. destruct f_links as (ids & g & addrs & _ & _ & _ & H & _). exact H. Qed.
Lemma f_nodup : NoDup D.
Proof. apply places_NoDup. Qed.
Lemma f_slot : forall j, j < P * S -> j / S < P /\ j mod S < S.
Proof.
  intros j L. destruct (P_ok h) as [HP HS]. split; [apply Nat.div_lt_upper_bound; lia|apply Nat.mod_upper_bound; lia].
Qed.

Lemma f_call : forall j k, nth_error D j = Some k -> exists cl, nth_error ms k = Some (true, cl) /\ cl_helper cl = h /\ rank (launch_of h) k ms = j.
Proof.
  intros j k E. pose proof (nth_error_In _ _ E) as K. change D with (launched_by b h cs) in K. apply launched_in in K. destruct K as (cl & Hk & Eh). exists cl. split; [exact Hk|]. split; [exact Eh|].
  assert (R : nth_error D (rank (launch_of h) k ms) = Some k).
  { apply (places_rank _ (launch_of h) ms 0 k (true, cl) Hk). unfold launch_of. cbn. apply Nat.eqb_eq. exact Eh. }
  apply (proj1 (NoDup_nth_error D) f_nodup); [apply nth_error_Some; congruence|congruence].
Qed.

Lemma f_dev : forall j k, nth_error D j = Some k ->
  nth_error (sw_devs w) k = Some (mkSD (node_of cs k) (KSat (sat_make ho id (Z.of_nat (j / S)) (Z.of_nat (j mod S)))) (Some c)).
Proof.
  intros j k E. destruct (f_call j k E) as (cl & Hk & Eh & Er).
  destruct (script_devices debug ho plans plans_ok b first t0 l l_holds w w_ok) as (_ & Hd & _). rewrite (Hd k _ Hk). unfold device_of. cbn [fst snd]. rewrite Eh, Er.
  rewrite (of_chan _ _ _ _ _ fleet cl (nth_error_In _ _ Hk) Eh). unfold node_of. rewrite (mk_nth b cs k _ Hk). reflexivity.
Qed.

Lemma f_sat : forall j k, nth_error D j = Some k -> sat_of ho w k = sat_make ho id (Z.of_nat (j / S)) (Z.of_nat (j mod S)).
Proof. intros j k E. unfold sat_of. rewrite (f_dev j k E). reflexivity. Qed.

Lemma f_node : forall k, In k D -> node_at w k = node_of cs k.
Proof. intros k K. apply In_nth_error in K. destruct K as [j E]. unfold node_at. rewrite (f_dev j k E). reflexivity. Qed.

Lemma f_first : forall k, In k D -> first_dev w (node_of cs k) = k.
Proof.
  intros k K. apply In_nth_error in K. destruct K as [j E]. destruct (f_call j k E) as (cl & Hk & Eh & Er). destruct f_links as (ids0 & g0 & ad0 & _ & _ & _ & _ & _ & I).
  pose proof (i_first _ _ _ _ _ _ _ _ _ I (node_of cs k)) as F. change (mk (b_pos b) cs) with ms in F.
  assert (En : cl_node cl = node_of cs k) by (unfold node_of; rewrite (mk_nth b cs k _ Hk); reflexivity).
  assert (Fp : hd_error (places (on (node_of cs k)) 0 ms) = Some k).
  { apply first_place. split; [exists (true, cl); split; [exact Hk|]; unfold on; cbn; apply Nat.eqb_eq; exact En|].
    intros i x L Hi. unfold on. apply Nat.eqb_neq. intros Ex. destruct (mk_launch plans P_ok id_ok b cs k cl Hk) as [_ Cn].
    assert (X : called (cl_node cl) (firstn k cs) = true); [|congruence]. apply called_in. exists (snd x). split; [|congruence]. apply (firstn_before plans P_ok id_ok) with (i := i); [apply (mk_nth b cs i x Hi)|exact L]. }
  rewrite Fp in F. cbn in F. unfold first_dev. destruct (sn_devs (sw_nodes w (node_of cs k))) as [|d dl]; [discriminate F|]. cbn in F. injection F as ->. reflexivity.
Qed.

Lemma f_inj : forall k k', In k D -> In k' D -> node_of cs k = node_of cs k' -> k = k'.
Proof. intros k k' K K' E. rewrite <- (f_first k K), <- (f_first k' K'), E. reflexivity. Qed.

Lemma f_dims : con_planes the_con = P /\ con_plane_size the_con = S.
Proof. exact (i_grid debug ho plans plans_ok b first t0 l l_holds w w_ok h). Qed.

Lemma f_seats : seats the_con = launch_adds S D.
Proof.
  destruct f_dims as [E1 E2]. unfold seats. rewrite E1, E2.
  destruct f_links as (ids0 & g0 & addrs & R & _ & _ & Ld & _ & I). pose proof (i_help _ _ _ _ _ _ _ _ _ I h) as Ih. cbv zeta in Ih.
  destruct (P_ok h) as [HP HS].
  set (F := fun j => let p := j / S in let i := j mod S in match get_satellite the_con p i with Ok (Some d) => [(p, i, d)] | _ => [] end).
  assert (G : forall n s, s + n = P * S -> flat_map F (seq s n) = skipn s (launch_adds S D)).
  { induction n as [|n IH]; intros s L.
    - cbn [seq flat_map]. rewrite skipn_all2; [reflexivity|]. rewrite launch_adds_length. lia.
    - cbn [seq flat_map]. rewrite (IH (Datatypes.S s)) by lia.
      pose proof (HelpersProps.linv_satellite _ _ _ _ _ _ _ _ _ s HP HS ltac:(rewrite Ld; lia) Ih ltac:(rewrite Ld; lia)) as Gs. fold the_con in Gs. unfold F. cbv zeta. rewrite Gs.
      change (launched_by b h cs) with D. destruct (nth_error D s) as [d|] eqn:Es; [|apply nth_error_None in Es; lia].
      pose proof (nth_launch S D s) as Nl. rewrite Es in Nl. cbn [option_map] in Nl.
      clear - Nl. revert Nl. generalize (s / S, s mod S, d). revert s. induction (launch_adds S D) as [|x r IH]; intros s e Nl; [destruct s; discriminate|].
      destruct s as [|s]; [injection Nl as ->; reflexivity|]. cbn [skipn]. apply (IH s e Nl). }
  rewrite (G (P * S) 0) by lia. reflexivity.
Qed.

Lemma f_addrs : forall addrs, run_adds ho (con_new id P S) (launch_adds S D) = Ok (the_con, addrs) -> map (fun e => sat_of ho w (snd e)) (launch_adds S D) = addrs.
Proof.
  intros addrs R. pose proof (run_adds_addrs _ _ _ _ _ (new_wf id P S) R) as E. cbn [con_id con_new] in E. rewrite E. apply map_ext_in. intros [[p i] k] X.
  apply In_nth_error in X. destruct X as [j X]. rewrite nth_launch in X. destruct (nth_error D j) as [k'|] eqn:Ej; [|discriminate X]. injection X as <- <- ->.
  cbn [fst snd]. rewrite (f_sat j k Ej). reflexivity.
Qed.

Lemma f_ends : forall g, (forall x, In x g -> In (fst x) D /\ In (snd x) D) -> map (fun e => (first_dev w (fst e), first_dev w (snd e))) (map (fun x => (node_of cs (fst x), node_of cs (snd x))) g) = g.
Proof.
  intros g Mem. rewrite map_map. rewrite <- (map_id g) at 2. apply map_ext_in. intros [x y] X. apply Mem in X. cbn [fst snd] in *. rewrite !f_first by tauto. reflexivity.
Qed.

Lemma f_view : gs_view w c = mkGS (Some the_con) (places (ground_at c) 0 ms).
Proof.
  unfold gs_view. rewrite (script_channels debug ho plans plans_ok b first t0 l l_holds w w_ok c), (of_told _ _ _ _ _ fleet). reflexivity.
Qed.

Lemma f_real : forall s, wf_sat ho (sat_of ho w s).
Proof.
  intros s. unfold sat_of. destruct (nth_error (sw_devs w) s) as [[n k ch]|] eqn:E; [|exists 0%Z, 0%Z, 0%Z; unfold is_u16; repeat split; lia].
  destruct k as [a|m]; [|exists 0%Z, 0%Z, 0%Z; unfold is_u16; repeat split; lia].
  destruct (script_devices debug ho plans plans_ok b first t0 l l_holds w w_ok) as (Ll & Hd & _).
  assert (X : exists x, nth_error ms s = Some x).
  { destruct (nth_error ms s) as [x|] eqn:Es; [eauto|]. apply nth_error_None in Es. assert (s < length cs) by (rewrite <- Ll; apply nth_error_Some; congruence).
    assert (length ms = length cs) by (pose proof (f_equal (@length _) (marks_snd (b_pos b) cs [])) as Q; rewrite map_length in Q; exact Q). lia. }
  destruct X as [[l0 cl] X]. rewrite (Hd s _ X) in E. unfold device_of in E. cbn [fst snd] in E. injection E as _ E _. destruct l0; [|discriminate E]. injection E as <-.
  set (h' := cl_helper cl). assert (Lo : launch_of h' (true, cl) = true) by (unfold launch_of; cbn; apply Nat.eqb_refl).
  destruct (script_constellations debug ho plans plans_ok b first t0 l l_holds w w_ok h' s _ X Lo) as [Lj _]. fold ms in Lj. set (j := rank (launch_of h') s ms) in *.
  destruct (plans_ok h') as (HP & HS & BP & BS & HI). exists (pl_id (plans h')), (Z.of_nat (j / pl_S (plans h'))), (Z.of_nat (j mod pl_S (plans h'))).
  assert (j / pl_S (plans h') < pl_P (plans h')) by (apply Nat.div_lt_upper_bound; lia). assert (j mod pl_S (plans h') < pl_S (plans h')) by (apply Nat.mod_upper_bound; lia).
  unfold is_u16. repeat split; lia.
Qed.

Lemma in_links_at : forall k j, In j (links_at w k) <-> In (IslModel.mkIsl (node_at w k) j) (sw_links w).
Proof.
  intros k j. unfold links_at. rewrite in_map_iff. split.
  - intros ([n x] & <- & H). apply filter_In in H. destruct H as [H E]. cbn [isl_node isl_chan] in *. apply Nat.eqb_eq in E. subst n. exact H.
  - intros H. exists (IslModel.mkIsl (node_at w k) j). split; [reflexivity|]. apply filter_In. split; [exact H|]. cbn. apply Nat.eqb_refl.
Qed.

Variable nodes : nat.
Variable version : option Z.
Variable sizes : Z * Z.
Hypothesis made : strategy_new [] version w nodes = Ok (Some sizes).
Hypothesis serves : last_serves b t0 l nodes h.

Lemma f_sizes : sizes = (Z.of_nat P, Z.of_nat S).
Proof.
  destruct sizes as [x y]. destruct (instance_made debug ho plans plans_ok b first t0 l l_holds w w_ok [] version nodes) as [_ H].
  pose proof (proj1 (H x y) made) as (_ & V & _). 
  pose proof (proj2 (H (Z.of_nat P) (Z.of_nat S)) (conj eq_refl (conj V (ex_intro _ h (conj serves (conj eq_refl eq_refl)))))) as E. rewrite made in E. injection E as <- <-. reflexivity.
Qed.

Variable t : mission.
Hypothesis order : in_order ho plans b t0 l h (links_at w) t.
Notation m := (built ho w c sizes t).

Lemma f_built : exists g addrs, run_adds ho (con_new id P S) (launch_adds S D) = Ok (the_con, addrs) /\ install_grid (repeat id (P * S)) the_con = Ok g /\
  (forall x, In x g -> In (fst x) D /\ In (snd x) D) /\ sw_links w = install_pairs 0 (map (fun x => (node_of cs (fst x), node_of cs (snd x))) g) /\
  g_host (m_set m) = ho /\ g_planes (m_set m) = P /\ g_size (m_set m) = S /\ g_adds (m_set m) = launch_adds S D /\ g_addrs (m_set m) = addrs /\ g_links (m_set m) = g /\
  w_con (m_up m) = the_con.
Proof.
  destruct f_links as (ids & g & addrs & R & Eg & Li & Ld & Mem & I). exists g, addrs. split; [exact R|].
  assert (Sr : same_constellation 0 (repeat id (P * S)) = Ok tt).
  { apply (same_constellation_ok id); [unfold is_u16; pose proof (id_ok h); lia|pose proof (id_ok h); lia|]. clear. induction (P * S); cbn [repeat]; constructor; auto. }
  split; [rewrite (same_split _ _ Sr), repeat_length, <- Li, <- (same_split _ _ (grid_same _ _ _ Eg)); exact Eg|]. split; [exact Mem|].
  pose proof (SetupProofs.i_links _ _ _ _ _ _ _ _ _ I) as El. split; [exact El|].
  unfold built. rewrite f_view, f_sizes. cbn [gs_con m_set m_up g_host g_planes g_size g_adds g_addrs g_links w_con fst snd]. rewrite !Nat2Z.id, f_seats, (f_addrs _ R), El, link_ends_pairs, (f_ends g Mem). repeat split.
Qed.

Lemma f_prepared : prepared m.
Proof.
  destruct f_built as (g & addrs & R & Eg & Mem & El & E1 & E2 & E3 & E4 & E5 & E6 & E7).
  destruct (plans_ok h) as (HP & HS & BP & BS & HI).
  assert (Ud : is_u16 id) by (unfold is_u16; lia).
  assert (Dv : map dev_of (launch_adds S D) = D) by apply launch_adds_devs.
  constructor; rewrite ?E1, ?E2, ?E3, ?E4, ?E5, ?E6, ?E7; try reflexivity.
  - constructor; rewrite ?E1, ?E2, ?E3, ?E4, ?E5, ?E6.
    + exists id, the_con, (repeat id (P * S)). split; [exact Ud|]. split; [lia|]. split; [exact BP|]. split; [exact BS|]. split; [exact R|].
      split; [rewrite launch_adds_length; exact f_size|]. split; [rewrite Dv; exact f_nodup|]. split; [clear; induction (P * S); cbn [repeat]; constructor; auto|]. split; [apply repeat_length|exact Eg].
    + intros n f Hn. rewrite Dv in Hn. change (g_table (m_set m)) with (g_table (m_set t)). rewrite (io_table _ _ _ _ _ _ _ _ order n f Hn).
      assert (Y : forall j, In j (links_at w n) <-> exists x, GeoTagSpec.ends g j n x).
      { intros j. rewrite in_links_at, El, (f_node n Hn), in_install. cbn [plus]. split.
        - intros (j' & x & <- & [X|X]); rewrite nth_error_map in X; (destruct (nth_error g j) as [[u v]|] eqn:G; [|discriminate X]); cbn [option_map fst snd] in X; injection X as X1 X2; destruct (Mem _ (nth_error_In _ _ G)) as [M1 M2]; cbn [fst snd] in *.
          + apply (f_inj u n M1 Hn) in X1. subst u. exists v. left. exact G.
          + apply (f_inj v n M2 Hn) in X2. subst v. exists u. right. exact G.
        - intros (x & [G|G]); exists j, (node_of cs x); split; [reflexivity|left|reflexivity|right]; rewrite nth_error_map, G; reflexivity. }
      split; (intros [->|X]; [left; reflexivity|right]).
      * destruct X as (j & -> & X). apply Y in X. destruct X as (x & X). eauto.
      * destruct X as (j & x & -> & X). exists j. split; [reflexivity|]. apply Y. eauto.
    + exact (io_request _ _ _ _ _ _ _ _ order).
    + exact (io_itx _ _ _ _ _ _ _ _ order).
    + exact (io_idelay _ _ _ _ _ _ _ _ order).
    + exact (io_ndn _ _ _ _ _ _ _ _ order).
  - exact (io_proper _ _ _ _ _ _ _ _ order).
  - exact (io_slots _ _ _ _ _ _ _ _ order).
  - exists id. split; [exact Ud|exact R].
  - intros x. change (w_a0 (m_up m) x) with (w_a0 (m_up t) x). destruct (io_start _ _ _ _ _ _ _ _ order x) as (p & i & Hp & Hi & ->).
    rewrite <- (f_addrs addrs R). set (j := p * S + i). assert (Lj : j < P * S) by (unfold j; nia).
    destruct (nth_error D j) as [k|] eqn:Ek; [|apply nth_error_None in Ek; rewrite f_size in Ek; lia].
    assert (Dj : j / S = p /\ j mod S = i).
    { unfold j. split; [rewrite Nat.add_comm, Nat.div_add by lia; rewrite Nat.div_small by lia; reflexivity|rewrite Nat.add_comm, Nat.mod_add by lia; apply Nat.mod_small; lia]. }
    apply in_map_iff. exists (j / S, j mod S, k). split; [cbn [snd]; rewrite (f_sat j k Ek); destruct Dj as [-> ->]; reflexivity|].
    apply nth_error_In with (n := j). rewrite nth_launch, Ek. reflexivity.
  - exact (io_dtx _ _ _ _ _ _ _ _ order).
  - exact (io_ddelay _ _ _ _ _ _ _ _ order).
  - intros k e a Hk Ha. rewrite <- (f_addrs addrs R), nth_error_map, Hk in Ha. injection Ha as <-. reflexivity.
  - exact f_real.
Qed.

(** In the mission a satellite does what the instance of the strategy on its node does. *)
Lemma f_react : forall x i k f, In k D ->
  RelayProps.g_react (m_set m) x i k f = after_receive_interest (instance_net w sizes) ho (node_at w k) (g_table (m_set t) k) (g_request (m_set t) x i k f).
Proof.
  intros x i k f Hk. destruct f_built as (g & addrs & R & Eg & Mem & El & E1 & E2 & E3 & E4 & E5 & E6 & E7). unfold RelayProps.g_react. rewrite E1, E2, E3, E4, E5, E6.
  change (g_table (m_set m) k) with (g_table (m_set t) k). change (g_request (m_set m) x i k f) with (g_request (m_set t) x i k f).
  assert (Dv : map dev_of (launch_adds S D) = D) by apply launch_adds_devs.
  assert (Ad : forall k', In k' D -> nw_addr (launched_net (launch_adds S D) addrs g P S) k' = first_address w (node_of cs k')).
  { intros k' K. apply In_nth_error in K. destruct K as [j Ej]. cbn [nw_addr launched_net].
    rewrite (lookup_combine (launch_adds S D) addrs j (j / S) (j mod S) k' (sat_of ho w k')).
    - rewrite (f_sat j k' Ej). symmetry. apply (i_address debug ho plans plans_ok b first t0 l l_holds w w_ok h j).
      rewrite (sats_nodes plans P_ok id_ok). apply map_nth_error. exact Ej.
    - rewrite Dv. exact f_nodup.
    - rewrite nth_launch, Ej. reflexivity.
    - rewrite <- (f_addrs addrs R), nth_error_map, nth_launch, Ej. reflexivity. }
  apply react_renamed.
  - rewrite f_sizes. reflexivity.
  - rewrite f_sizes. reflexivity.
  - rewrite (f_node k Hk). apply Ad, Hk.
  - intros f'. rewrite (f_node k Hk). unfold sat_address_of, remote_node. destruct f' as [|j|n|n]; cbn [rbind]; try reflexivity.
    + cbn [nw_addr instance_net]. rewrite (Ad k Hk). reflexivity.
    + cbn [nw_links launched_net instance_net]. rewrite El, link_ends_pairs, nth_error_map. destruct (nth_error g j) as [[u v]|] eqn:G; cbn [option_map rbind fst snd]; [|reflexivity].
      destruct (Mem _ (nth_error_In _ _ G)) as [M1 M2]. cbn [fst snd] in *.
      assert (Q : (node_of cs u =? node_of cs k) = (u =? k)).
      { destruct (Nat.eqb_spec u k) as [->|N]; [apply Nat.eqb_refl|]. apply Nat.eqb_neq. intros X. apply N, (f_inj u k M1 Hk X). }
      rewrite Q. destruct (u =? k); rewrite Ad by assumption; reflexivity.
    + cbn [nw_addr instance_net]. rewrite (Ad k Hk). reflexivity.
Qed.
End Fleet.
