(** Theorems on building a scenario and on what its devices then refer to. *)
From Coq Require Import ZArith QArith List Lia Bool Arith.
From Verif Require Import Base SatAddrModel SatAddrProofs ConstellationModel ConstellationSpec ConstellationProofs ConstellationProps LaunchModel LaunchSpec
  LaunchProofs ChannelModel IslModel IslSpec IslProofs IslProps HelpersProps SetupModel SetupSpec SetupProofs SetupRun.
Import ListNotations.
Open Scope nat_scope.

Section Script.
Variable debug : bool.
Variable ho : host.
Variable plans : nat -> plan.
Hypothesis plans_ok : proper plans.
Variable b : before.
Variable first : Z.
Variable t0 : nat.
Variable l : list sop.
Hypothesis l_holds : holds 0 l.

Let P_ok : forall h, 0 < pl_P (plans h) /\ 0 < pl_S (plans h).
Proof. intros h. destruct (plans_ok h) as (H1 & H2 & _). auto. Qed.
Let id_ok : forall h, (0 < pl_id (plans h) < 65536)%Z.
Proof. intros h. apply (plans_ok h). Qed.

Let cs := calls 0 t0 l.
Let ms := marks (b_pos b) [] cs.

(** C76: which scripts run through, and what they leave behind. *)
Theorem script_builds :
  (exists w, setup rational debug ho (start plans b first t0) l = Ok w) <->
  (Forall (fun o => null_op o = false) l /\ fits plans b cs /\
   Forall (fun a => linkable plans b (fst (fst a)) (snd (fst a)) (snd a)) (asked [] 0 t0 l)).
Proof.
  split.
  - intros [w E]. destruct (run_only debug ho plans P_ok id_ok b first l [] [] t0 [] _ _ (start_inv ho plans P_ok b first t0) (good_nil _ _) l_holds E) as (H1 & H2 & H3).
    split; [exact H1|]. split; [apply (good_fits plans P_ok id_ok); exact H2|exact H3].
  - intros (H1 & H2 & H3). apply (good_fits plans P_ok id_ok b cs) in H2.
    destruct (run_ok debug ho plans P_ok id_ok b first l [] [] t0 [] _ (start_inv ho plans P_ok b first t0) l_holds H1 H2 H3) as (w & nets & E & _). eauto.
Qed.

Variable w : world Q.
Hypothesis w_ok : setup rational debug ho (start plans b first t0) l = Ok w.

Lemma script_inv : exists nets, Forall2 (net_of plans b) (asked [] 0 t0 l) nets /\ fits plans b cs /\
  inv ho plans b first cs (told l []) (last_type t0 l) (install_pairs 0 (concat nets)) w.
Proof.
  destruct (run_only debug ho plans P_ok id_ok b first l [] [] t0 [] _ _ (start_inv ho plans P_ok b first t0) (good_nil _ _) l_holds w_ok) as (H1 & H2 & H3).
  destruct (run_ok debug ho plans P_ok id_ok b first l [] [] t0 [] _ (start_inv ho plans P_ok b first t0) l_holds H1 H2 H3) as (w' & nets & E & F & I).
  rewrite w_ok in E. injection E as <-. exists nets. split; [exact F|]. split; [apply (good_fits plans P_ok id_ok); exact H2|exact I].
Qed.

Theorem script_devices :
  length (sw_devs w) = length cs /\
  (forall k x, nth_error ms k = Some x -> nth_error (sw_devs w) k = Some (device_of ho plans first ms k x)) /\
  (forall n, gs_of (sn_devs (sw_nodes w n)) = places (on n) 0 ms) /\
  (forall n, sn_trackers (sw_nodes w n) = b_trackers b n ++ map (fun x => cl_type (snd x)) (filter (ground_on n) ms)) /\
  (forall n, sn_pos (sw_nodes w n) = b_pos b n || existsb (Nat.eqb n) (map cl_node cs)).
Proof.
  destruct script_inv as (nets & _ & _ & I). split; [apply I|]. split; [apply I|]. split; [apply I|]. split; [apply I|]. apply I.
Qed.

(** The link of a device is up just when its call gave a channel. *)
Theorem script_link_up : forall k, link_up w k = true <-> exists c, nth_error cs k = Some c /\ cl_chan c <> None.
Proof.
  intros k. destruct script_devices as (Hl & Hd & _). unfold link_up.
  assert (M0 : forall r seen, map snd (marks (b_pos b) seen r) = r).
  { induction r as [|c r IH]; intros seen; cbn; [reflexivity|]. rewrite IH. reflexivity. }
  assert (M : map snd ms = cs) by apply M0. clear M0.
  destruct (nth_error ms k) as [x|] eqn:E.
  - rewrite (Hd k x E). assert (Ec : nth_error cs k = Some (snd x)) by (rewrite <- M; apply map_nth_error, E). rewrite Ec.
    unfold device_of. destruct (cl_chan (snd x)) eqn:Ch; split; intros H; try discriminate; try reflexivity.
    + exists (snd x). split; [reflexivity|]. rewrite Ch. discriminate.
    + destruct H as (c & Hc & Nc). injection Hc as <-. contradiction.
  - assert (Ec : nth_error cs k = None) by (apply nth_error_None; rewrite <- M, map_length; apply nth_error_None, E).
    assert (Ed : nth_error (sw_devs w) k = None) by (apply nth_error_None; rewrite Hl; apply nth_error_None, Ec). rewrite Ed, Ec.
    split; [discriminate|]. intros (c & Hc & _). discriminate.
Qed.

Theorem script_channels : forall c,
  nth_error (sw_chans w) c = option_map (fun o => mkSC o (places (ground_at c) 0 ms)) (nth_error (told l []) c).
Proof. destruct script_inv as (nets & _ & _ & I). apply I. Qed.

Theorem script_constellations : forall h k x, nth_error ms k = Some x -> launch_of h x = true ->
  let j := rank (launch_of h) k ms in let S := pl_S (plans h) in
  j < pl_P (plans h) * S /\ get_satellite (h_con (sw_helpers w h)) (j / S) (j mod S) = Ok (Some k).
Proof.
  intros h k x H L j S. destruct script_inv as (nets & _ & F & I).
  destruct (P_ok h) as [HP HS]. pose proof (i_help _ _ _ _ _ _ _ _ _ I h) as Ih. cbv zeta in Ih.
  assert (Lj : j < length (launched_by b h cs)) by (unfold launched_by; rewrite places_length; exact (rank_lt _ _ _ _ _ H L)).
  assert (Le : length (launched_by b h cs) <= pl_P (plans h) * pl_S (plans h)) by (rewrite <- (sats_length plans P_ok id_ok); apply F).
  split; [unfold S; lia|]. unfold S. rewrite (HelpersProps.linv_satellite _ _ _ _ _ _ _ _ _ j HP HS Le Ih Lj).
  f_equal. exact (places_rank _ (launch_of h) _ 0 k x H L).
Qed.

Theorem script_links : exists nets,
  Forall2 (fun a net => is_grid (pl_P (plans (snd a))) (pl_S (plans (snd a))) (sats_of b (snd a) (fst (fst a))) net) (asked [] 0 t0 l) nets /\
  sw_links w = install_pairs 0 (concat nets) /\
  (forall n, isl_of (sn_devs (sw_nodes w n)) = places (fun d => isl_node d =? n) 0 (sw_links w)).
Proof.
  destruct script_inv as (nets & N & _ & I). exists nets. split; [exact N|]. split; [apply I|]. rewrite (i_links _ _ _ _ _ _ _ _ _ I). apply I.
Qed.

(** * C77: whom a channel reaches *)

Variable tx_time : Z -> Z -> Z.
Variable delay : nat -> nat -> Z.
Variable loss : Z -> nat -> nat -> Z.
Variable success : option (nat -> nat -> bool).
Variable ground_addr : nat -> Z.
Variable sat_addr : nat -> sat_address.

Let up := transmit2sat ho tx_time delay loss success ground_addr.

Lemma launched_call : forall h k, In k (launched_by b h cs) -> exists c, nth_error ms k = Some (true, c) /\ cl_helper c = h.
Proof. intros h k H. apply launched_in in H. exact H. Qed.

(** A frame sent on channel [c] to the address of satellite [k] gets to it just when the channel was last told of its
    constellation; on which channel the satellite was installed does not matter. *)
Theorem uplink_reaches : forall c k sat a ch src u rate proto power, c < length (told l []) ->
  nth_error ms k = Some (true, sat) -> nth_error (sw_devs w) k = Some (mkSD (cl_node sat) (KSat a) ch) -> gs_succeeds success src k = true ->
  (nth_error (told l []) c = Some (Some (cl_helper sat)) ->
     up (gs_view w c) u rate src a proto power =
       Ok (tx_time rate u, [AtSat (delay src k) k u rate (SrcGround (ground_addr src)) proto (loss power src k)])) /\
  (nth_error (told l []) c = Some None -> up (gs_view w c) u rate src a proto power = Ok (tx_time rate u, [Dropped u])) /\
  (forall h, nth_error (told l []) c = Some (Some h) -> pl_id (plans h) <> pl_id (plans (cl_helper sat)) ->
     up (gs_view w c) u rate src a proto power = Assert) /\
  (forall t out after r s p pw, up (gs_view w c) u rate src a proto power = Ok (t, out) -> In (AtSat after k u r s p pw) out ->
     nth_error (told l []) c = Some (Some (cl_helper sat))).
Proof.
  intros c k sat a ch src u rate proto power Lc H D Suc. destruct script_inv as (nets & _ & Fi & I).
  pose proof (i_devs _ _ _ _ _ _ _ _ _ I k _ H) as D'. rewrite D in D'. unfold device_of in D'. cbn [fst snd] in D'.
  injection D' as Ea _. set (h' := cl_helper sat) in *. fold ms in Ea. set (j := rank (launch_of h') k ms) in *.
  change (mk (b_pos b) cs) with ms in Ea. fold j in Ea.
  assert (Lo : launch_of h' (true, sat) = true) by (unfold launch_of; cbn; apply Nat.eqb_refl).
  assert (Hk : nth_error (launched_by b h' cs) j = Some k) by (apply (places_rank _ (launch_of h') ms 0 k _ H Lo)).
  assert (Lj : j < pl_P (plans h') * pl_S (plans h')).
  { apply Nat.lt_le_trans with (m := length (launched_by b h' cs)); [apply nth_error_Some; congruence|]. rewrite <- (sats_length plans P_ok id_ok). apply Fi. }
  destruct (plans_ok h') as (HP & HS & BP & BS & HI).
  assert (Lp : j / pl_S (plans h') < pl_P (plans h')) by (apply Nat.div_lt_upper_bound; lia).
  assert (Li : j mod pl_S (plans h') < pl_S (plans h')) by (apply Nat.mod_upper_bound; lia).
  assert (Look : forall h, let found := get_satellite_addr ho (h_con (sw_helpers w h)) a in
     (pl_id (plans h) <> pl_id (plans h') -> found = Assert) /\ (h = h' -> found = Ok (Some k)) /\ (found = Ok (Some k) -> h = h')).
  { intros h found. destruct (help_run ho plans b first cs _ _ _ w h I) as [addrs R].
    assert (Found : found = Ok (Some k) -> h = h').
    { intros E. unfold found in E.
      destruct (lookup_by_address_partial _ _ _ _ _ _ _ (pl_id (plans h')) (j / pl_S (plans h')) (j mod pl_S (plans h')) ltac:(unfold is_u16; lia) ltac:(unfold is_u16; lia) ltac:(unfold is_u16; lia) R) as [Q1 Q2].
      rewrite <- Ea in Q1, Q2.
      destruct (Z.eq_dec (pl_id (plans h')) (pl_id (plans h))) as [Ei|Ei]; [|rewrite (Q1 Ei) in E; discriminate E].
      destruct (Q2 Ei) as (Q3 & Q4 & Q5).
      set (p := j / pl_S (plans h')) in *. set (i := j mod pl_S (plans h')) in *.
      destruct (Nat.lt_ge_cases p (pl_P (plans h))) as [Lp'|Lp'].
      - destruct (Nat.lt_ge_cases i (pl_S (plans h))) as [Li'|Li'].
        + rewrite (Q3 (conj Lp' Li')) in E. injection E as E. apply added_at_inv in E. assert (Em : In k (launched_by b h cs)) by (rewrite <- (launch_adds_devs (pl_S (plans h))); apply in_map_iff; exists (p, i, k); auto).
          destruct (launched_call _ _ Em) as (c1 & Hc1 & <-). rewrite H in Hc1. injection Hc1 as <-. reflexivity.
        + exfalso. destruct (Nat.eq_dec i (pl_S (plans h))); [rewrite Q4 in E by lia; discriminate E|rewrite Q5 in E by lia; discriminate E].
      - exfalso. destruct (Nat.lt_ge_cases (pl_S (plans h)) i); [rewrite Q5 in E by lia; discriminate E|].
        destruct (Nat.eq_dec p (pl_P (plans h))); [rewrite Q4 in E by lia; discriminate E|rewrite Q5 in E by lia; discriminate E]. }
    split; [|split; [|exact Found]].
    - intros Ne. unfold found. rewrite Ea.
      destruct (lookup_by_address_partial _ _ _ _ _ _ _ (pl_id (plans h')) (j / pl_S (plans h')) (j mod pl_S (plans h')) ltac:(unfold is_u16; lia) ltac:(unfold is_u16; lia) ltac:(unfold is_u16; lia) R) as [Q1 _].
      apply Q1. congruence.
    - intros ->. unfold found. rewrite Ea.
      destruct (lookup_by_address_partial _ _ _ _ _ _ _ (pl_id (plans h')) (j / pl_S (plans h')) (j mod pl_S (plans h')) ltac:(unfold is_u16; lia) ltac:(unfold is_u16; lia) ltac:(unfold is_u16; lia) R) as [_ Q2].
      destruct (Q2 eq_refl) as (Q3 & _). rewrite (Q3 (conj Lp Li)). f_equal. eapply added_at_launched; eassumption. }
  assert (V : forall o, nth_error (told l []) c = Some o -> gs_con (gs_view w c) = option_map (fun h => h_con (sw_helpers w h)) o).
  { intros o E. unfold gs_view. rewrite (i_chan _ _ _ _ _ _ _ _ _ I c), E. reflexivity. }
  unfold up, transmit2sat. split; [|split; [|split]].
  - intros E. rewrite (V _ E). cbn [option_map]. rewrite (proj1 (proj2 (Look h')) eq_refl). cbn [rbind]. rewrite Suc. reflexivity.
  - intros E. rewrite (V _ E). reflexivity.
  - intros h E Ne. rewrite (V _ E). cbn [option_map]. rewrite (proj1 (Look h) Ne). reflexivity.
  - intros t out after r s p pw E Hin. destruct (nth_error (told l []) c) as [[h|]|] eqn:Et.
    + rewrite (V _ eq_refl) in E. cbn [option_map] in E. destruct (Look h) as (_ & _ & Lk).
      destruct (get_satellite_addr ho (h_con (sw_helpers w h)) a) as [[d|]| | |]; try discriminate E. cbn [rbind] in E.
      destruct (gs_succeeds success src d); injection E as <- <-; destruct Hin as [Hin|[]]; try discriminate Hin.
      injection Hin as _ -> _ _ _ _. rewrite (Lk eq_refl). reflexivity.
    + rewrite (V _ eq_refl) in E. cbn [option_map] in E. injection E as <- <-. destruct Hin as [Hin|[]]. discriminate Hin.
    + exfalso. apply nth_error_None in Et. lia.
Qed.

(** What a satellite sends on the channel it holds is offered to the ground devices installed on that channel, in order. *)
Theorem downlink_offers : forall c u rate s proto power, c < length (told l []) ->
  length (transmit2ground delay loss success sat_addr (gs_view w c) u rate s proto power) = length (places (ground_at c) 0 ms) /\
  (forall g after r src p pw, In (AtGround after g u r src p pw) (transmit2ground delay loss success sat_addr (gs_view w c) u rate s proto power) ->
     exists x, nth_error ms g = Some x /\ ground_at c x = true) /\
  (forall g x, nth_error ms g = Some x -> ground_at c x = true -> gs_succeeds success g s = true ->
     In (AtGround (delay g s) g u rate (SrcSat (sat_addr s)) proto (loss power g s)) (transmit2ground delay loss success sat_addr (gs_view w c) u rate s proto power)).
Proof.
  intros c u rate s proto power Lc. destruct script_inv as (nets & _ & _ & I).
  assert (V : gs_ground (gs_view w c) = places (ground_at c) 0 ms).
  { unfold gs_view. rewrite (i_chan _ _ _ _ _ _ _ _ _ I c). destruct (nth_error (told l []) c) eqn:E; [reflexivity|]. apply nth_error_None in E. lia. }
  unfold transmit2ground. rewrite V.
  assert (In_each : forall gs o, In o (to_each delay loss success sat_addr gs u rate s proto power) <->
     exists g, In g gs /\ o = if gs_succeeds success g s then AtGround (delay g s) g u rate (SrcSat (sat_addr s)) proto (loss power g s) else Dropped u).
  { induction gs as [|g gs IH]; intros o; cbn [to_each In].
    - split; [intros []|]. intros (g & [] & _).
    - rewrite IH. split.
      + intros [<-|(g' & Hg & E)]; [exists g; auto|exists g'; auto].
      + intros (g' & [<-|Hg] & E); [left; congruence|right; eauto]. }
  split; [|split].
  - generalize (places (ground_at c) 0 ms). induction l0 as [|g gs IH]; cbn [to_each length]; [reflexivity|]. rewrite IH. reflexivity.
  - intros g after r src p pw Hin. apply In_each in Hin. destruct Hin as (g' & Hg & E). destruct (gs_succeeds success g' s); [|discriminate E].
    injection E as _ -> _ _ _ _. apply places_in in Hg. destruct Hg as (i & x & -> & Hx & Gx). eauto.
  - intros g x Hx Gx Suc. apply In_each. exists g. rewrite Suc. split; [|reflexivity]. apply places_in. exists g, x. auto.
Qed.

(** Both ways, between the stations and the satellites of one channel, if the channel and the constellation are kept together:
    nodes are installed on the channel together, and no satellite of the constellation and no other constellation's is
    installed elsewhere or here. *)
Theorem channel_two_way_partial : forall c h, nth_error (told l []) c = Some (Some h) ->
  (forall k x, nth_error ms k = Some (true, x) -> (cl_helper x = h <-> cl_chan x = Some c)) ->
  forall k sat g sta a, nth_error ms k = Some (true, sat) -> nth_error ms g = Some (false, sta) -> cl_chan sta = Some c ->
  nth_error (sw_devs w) k = Some (mkSD (cl_node sat) (KSat a) (cl_chan sat)) ->
  gs_succeeds success g k = true ->
  (forall u rate proto power, cl_chan sat = Some c <->
     up (gs_view w c) u rate g a proto power = Ok (tx_time rate u, [AtSat (delay g k) k u rate (SrcGround (ground_addr g)) proto (loss power g k)])) /\
  (forall u rate proto power, cl_chan sat = Some c ->
     In (AtGround (delay g k) g u rate (SrcSat (sat_addr k)) proto (loss power g k)) (transmit2ground delay loss success sat_addr (gs_view w c) u rate k proto power)).
Proof.
  intros c h Et One k sat g sta a Hk Hg Cg D Suc.
  assert (Lc : c < length (told l [])) by (apply nth_error_Some; congruence).
  split.
  - intros u rate proto power.
    destruct (uplink_reaches c k sat a (cl_chan sat) g u rate proto power Lc Hk D Suc) as (U1 & _ & _ & U4). split.
    + intros E. apply U1. rewrite Et. apply (One _ _ Hk) in E. congruence.
    + intros E. apply (One _ _ Hk). specialize (U4 _ _ _ _ _ _ _ E (or_introl eq_refl)). congruence.
  - intros u rate proto power _. destruct (downlink_offers c u rate k proto power Lc) as (_ & _ & Dn). apply (Dn g (false, sta) Hg); [|exact Suc].
    unfold ground_at, is_ground. cbn. rewrite Cg. apply Nat.eqb_refl.
Qed.

(** * C78: which device a tracker finds *)

Theorem tracker_finds_last : forall n,
  tracker_device w n = match last_place (ground_on n) ms with Some k => Ok k | None => Assert end.
Proof.
  intros n. destruct script_inv as (nets & _ & _ & I). unfold tracker_device, last_place.
  assert (A1 : forall dl found, last_ground w dl found = last_ground w (map RGs (gs_of dl)) found).
  { induction dl as [|[k|k] dl IH]; intros found; cbn [last_ground gs_of flat_map app map]; [reflexivity| |apply IH].
    destruct (nth_error (sw_devs w) k) as [[? [?|?] ?]|]; apply IH. }
  rewrite A1, (i_gs _ _ _ _ _ _ _ _ _ I n). change (mk (b_pos b) cs) with ms.
  assert (A2 : forall xs from found, (forall i x, nth_error xs i = Some x -> nth_error ms (from + i) = Some x) ->
     last_ground w (map RGs (places (on n) from xs)) found =
     match hd_error (rev (places (ground_on n) from xs)) with Some k => Some k | None => found end).
  { induction xs as [|x xs IH]; intros from found H; cbn [places]; [reflexivity|].
    assert (Hx : nth_error ms from = Some x) by (specialize (H 0 x eq_refl); rewrite Nat.add_0_r in H; exact H).
    assert (H' : forall i y, nth_error xs i = Some y -> nth_error ms (S from + i) = Some y) by (intros i y Hy; replace (S from + i) with (from + S i) by lia; apply H; exact Hy).
    unfold ground_on at 1. destruct (on n x) eqn:On; cbn [andb]; [|rewrite andb_false_r; cbn [app]; apply IH; exact H'].
    rewrite andb_true_r. cbn [app map last_ground]. rewrite (i_devs _ _ _ _ _ _ _ _ _ I _ _ Hx). unfold device_of.
    unfold is_ground. destruct (fst x); cbn [negb app].
    - rewrite IH by exact H'. reflexivity.
    - rewrite IH by exact H'. cbn [rev]. destruct (rev (places (ground_on n) (S from) xs)); reflexivity. }
  rewrite A2 by auto. destruct (hd_error (rev (places (ground_on n) 0 ms))); reflexivity.
Qed.

Theorem tracker_sees_last_told : forall n k x, last_place (ground_on n) ms = Some k -> nth_error ms k = Some x ->
  exists c o, cl_chan (snd x) = Some c /\ nth_error (told l []) c = Some o /\ tracker_constellation w n = Ok o.
Proof.
  intros n k x Lp Hx. destruct script_inv as (nets & _ & F & I). unfold tracker_constellation. rewrite tracker_finds_last, Lp. cbn [rbind].
  rewrite (i_devs _ _ _ _ _ _ _ _ _ I _ _ Hx). unfold device_of.
  assert (Gx : fst x = false).
  { unfold last_place in Lp. assert (X : In k (places (ground_on n) 0 ms)).
    { apply in_rev. destruct (rev (places (ground_on n) 0 ms)); [discriminate Lp|]. injection Lp as ->. left. reflexivity. }
    apply places_in in X. destruct X as (i & y & Ei & Hy & Gy). cbn in Ei. subst i. rewrite Hx in Hy. injection Hy as <-.
    unfold ground_on, is_ground in Gy. apply andb_prop in Gy. destruct Gy as [Gy _]. destruct (fst x); [discriminate Gy|reflexivity]. }
  destruct x as [m cl]. cbn [fst snd] in *. subst m. pose proof (f_chan _ _ _ F cl (nth_error_In _ _ Hx)) as Nc.
  destruct (cl_chan cl) as [c|] eqn:Ec; [|congruence]. rewrite (i_chan _ _ _ _ _ _ _ _ _ I c).
  assert (Lc : c < length (told l [])).
  { apply (i_known _ _ _ _ _ _ _ _ _ I cl); [|exact Ec]. apply (nth_error_In _ k). apply (mk_nth b cs k _ Hx). }
  destruct (nth_error (told l []) c) as [o|] eqn:Eo; [|apply nth_error_None in Eo; lia]. cbn [option_map]. exists c, o. auto.
Qed.

(** On a node with one ground device, its tracker finds that one and the constellation of its channel. *)
Theorem tracker_own_device_partial : forall n k cl, nth_error ms k = Some (false, cl) -> cl_node cl = n ->
  (forall k' x, nth_error ms k' = Some x -> ground_on n x = true -> k' = k) ->
  tracker_device w n = Ok k /\ exists c o, cl_chan cl = Some c /\ nth_error (told l []) c = Some o /\ tracker_constellation w n = Ok o.
Proof.
  intros n k cl Hk En One.
  assert (Gk : ground_on n (false, cl) = true) by (unfold ground_on, is_ground, on; cbn; apply Nat.eqb_eq; exact En).
  assert (X : places (ground_on n) 0 ms = [k]).
  { assert (A : forall z, In z (places (ground_on n) 0 ms) -> z = k).
    { intros z Z. apply places_in in Z. destruct Z as (i & x & -> & Hx & Gx). exact (One i x Hx Gx). }
    assert (B : In k (places (ground_on n) 0 ms)) by (apply places_in; exists k, (false, cl); auto).
    pose proof (places_NoDup _ (ground_on n) ms 0) as N. destruct (places (ground_on n) 0 ms) as [|x1 [|x2 r]]; [destruct B| |].
    - rewrite (A x1 (or_introl eq_refl)). reflexivity.
    - exfalso. inversion N; subst. rewrite (A x1 (or_introl eq_refl)) in H1. rewrite (A x2 (or_intror (or_introl eq_refl))) in H1. apply H1. left. reflexivity. }
  assert (Lp : last_place (ground_on n) ms = Some k) by (unfold last_place; rewrite X; reflexivity).
  split; [rewrite tracker_finds_last, Lp; reflexivity|]. exact (tracker_sees_last_told n k _ Lp Hk).
Qed.

(** * C79: links on the nodes passed *)

(** If the nodes are different satellites of the constellation passed, the links are between these nodes, and all of them are in
    the torus. *)
Theorem links_on_nodes_partial : exists nets,
  sw_links w = install_pairs 0 (concat nets) /\
  Forall2 (fun a net => let ns := snd (fst a) in NoDup ns -> (forall n, In n ns -> In n (sats_of b (snd a) (fst (fst a)))) ->
     (forall n, In n ns <-> In n (sats_of b (snd a) (fst (fst a)))) /\
     (forall x y, In (x, y) net -> x <> y /\ In x ns /\ In y ns) /\
     is_grid (pl_P (plans (snd a))) (pl_S (plans (snd a))) (sats_of b (snd a) (fst (fst a))) net) (asked [] 0 t0 l) nets.
Proof.
  destruct script_inv as (nets & N & _ & I). exists nets. split; [apply I|].
  destruct (proj1 script_builds (ex_intro _ w w_ok)) as (_ & _ & Lk).
  revert Lk N. generalize (asked [] 0 t0 l) nets. intros q. induction q as [|a q IH]; intros ns' Lk N.
  { inversion N. constructor. }
  inversion N as [|? net ? nets' G1 N1]; subst. inversion Lk as [|? ? Lk1 Lk2]; subst. constructor; [|apply IH; assumption].
  cbv zeta. intros Nd Inc. destruct Lk1 as (L1 & L2 & _).
  assert (Same : forall n, In n (snd (fst a)) <-> In n (sats_of b (snd a) (fst (fst a)))).
  { intros n. split; [apply Inc|]. apply NoDup_length_incl; [exact Nd|lia|exact Inc]. }
  split; [exact Same|]. split; [|exact G1]. intros x y Hxy. destruct G1 as [_ G1]. destruct (G1 x y Hxy) as (Ne & Hx & Hy). split; [exact Ne|]. split; apply Same; assumption.
Qed.
End Script.

Print Assumptions script_builds.
Print Assumptions script_devices.
Print Assumptions script_link_up.
Print Assumptions script_channels.
Print Assumptions script_constellations.
Print Assumptions script_links.
Print Assumptions uplink_reaches.
Print Assumptions downlink_offers.
Print Assumptions channel_two_way_partial.
Print Assumptions tracker_finds_last.
Print Assumptions tracker_sees_last_told.
Print Assumptions tracker_own_device_partial.
Print Assumptions links_on_nodes_partial.

(** * Cases *)

(** Three constellations of one plane of two; nodes from 10 on have a position. *)
Definition demo_plans (h : nat) : plan := mkPlan (Z.of_nat (Nat.min h 2) + 1) 1 2 0 1000 60.
Definition demo_before : before := mkBefore (fun n => 10 <=? n) (fun _ => false) (fun _ => []).
Notation demo_script l := (setup rational true LittleEndian (start demo_plans demo_before 100 0) l).

Lemma demo_proper : proper demo_plans.
Proof. intros h. unfold demo_plans. cbn. pose proof (Nat.le_min_r h 2). repeat split; lia. Qed.

Definition demo_up (w : world Q) (c g : nat) (a : sat_address) :=
  transmit2sat LittleEndian (fun _ _ => 7%Z) (fun _ _ => 3%Z) (fun p _ _ => p) None (fun g => Z.of_nat g) (gs_view w c) 5 1000 g a 9 20.

Definition usual : list sop :=
  [SChannel; SMany [0; 1; 10] (Some 0) 0; SNew [2; 3; 11] 1; SIsl [0; 1] 0; STracker 4; SOne (Some 10) (Some 1) 0].

Example script_builds_case : match demo_script usual with
  | Ok w => length (sw_devs w) = 7 /\ nth_error (sw_devs w) 4 = Some (mkSD 3 (KSat (sat_make LittleEndian 2 0 1)) (Some 1)) /\
      nth_error (sw_devs w) 6 = Some (mkSD 10 (KGround 102) (Some 1)) /\
      sw_chans w = [mkSC (Some 0) [2]; mkSC (Some 1) [5; 6]] /\ map isl_node (sw_links w) = [0; 1] /\
      sn_trackers (sw_nodes w 10) = [0; 4] /\ sn_devs (sw_nodes w 1) = [RGs 1; RIsl 1]
  | _ => False end.
Proof. vm_compute. repeat split. Qed.

(** Scripts that stop: a third satellite; a station twice; a station without a channel; links of half a constellation. *)
Example script_builds_stops :
  demo_script [SNew [0; 1; 2] 0] = Assert /\ demo_script [SNew [10; 10] 0] = Abort /\
  demo_script [SOne (Some 10) None 0] = UB /\ demo_script [SNew [0] 0; SIsl [0] 0] = UB /\
  demo_script [SNew [0; 1; 10] 0; SIsl [0; 10] 0] = UB.
Proof. vm_compute. repeat split. Qed.

Example uplink_reaches_case : match demo_script usual with
  | Ok w => demo_up w 0 2 (sat_make LittleEndian 1 0 1) = Ok (7%Z, [AtSat 3 1 5 1000 (SrcGround 2) 9 20]) /\
      demo_up w 0 2 (sat_make LittleEndian 2 0 1) = Assert
  | _ => False end.
Proof. vm_compute. auto. Qed.

(** Every satellite that holds the channel of a station should be in reach of it.  A satellite and a station installed one by
    one are not: only an installation on many nodes tells the channel of the constellation. *)
Theorem channel_two_way_refuted : ~ (forall plans b l w c k sat a g sta, proper plans -> holds 0 l ->
  setup rational true LittleEndian (start plans b 100 0) l = Ok w ->
  nth_error (marks (b_pos b) [] (calls 0 0 l)) k = Some (true, sat) -> cl_chan sat = Some c ->
  nth_error (marks (b_pos b) [] (calls 0 0 l)) g = Some (false, sta) -> cl_chan sta = Some c ->
  nth_error (sw_devs w) k = Some (mkSD (cl_node sat) (KSat a) (Some c)) ->
  exists t after u r s p pw, demo_up w c g a = Ok (t, [AtSat after k u r s p pw])).
Proof.
  set (sc := [SChannel; SOne (Some 0) (Some 0) 0; SOne (Some 10) (Some 0) 0]). intros H.
  assert (X : match demo_script sc with
     | Ok w => nth_error (sw_devs w) 0 = Some (mkSD 0 (KSat (sat_make LittleEndian 1 0 0)) (Some 0)) /\ demo_up w 0 1 (sat_make LittleEndian 1 0 0) = Ok (7%Z, [Dropped 5])
     | _ => False end) by (vm_compute; auto).
  destruct (demo_script sc) as [w| | |] eqn:E; try contradiction. destruct X as [X1 X2].
  destruct (H demo_plans demo_before sc w 0 0 (mkCall 0 (Some 0) 0 0) (sat_make LittleEndian 1 0 0) 1 (mkCall 10 (Some 0) 0 0) demo_proper ltac:(cbn; repeat split; lia) E
    eq_refl eq_refl eq_refl eq_refl X1) as (t & after & u & r & s & p & pw & Y). rewrite X2 in Y. discriminate Y.
Qed.
Print Assumptions channel_two_way_refuted.

(** Two constellations on one channel: the first is asked for by an address it does not know, which stops a debug build.  And
    a satellite on another channel, or on none, is in reach of the stations of a channel that was told of its constellation. *)
Example two_way_cases :
  match demo_script [SChannel; SMany [0; 1; 10] (Some 0) 0; SMany [2; 3] (Some 0) 1] with
  | Ok w => demo_up w 0 2 (sat_make LittleEndian 1 0 0) = Assert | _ => False end /\
  match demo_script [SChannel; SChannel; SMany [10] (Some 0) 0; SOne (Some 0) (Some 1) 0; SOne (Some 1) None 0] with
  | Ok w => demo_up w 0 0 (sat_make LittleEndian 1 0 0) = Ok (7%Z, [AtSat 3 1 5 1000 (SrcGround 0) 9 20]) /\
      demo_up w 0 0 (sat_make LittleEndian 1 0 1) = Ok (7%Z, [AtSat 3 2 5 1000 (SrcGround 0) 9 20]) /\ link_up w 2 = false
  | _ => False end.
Proof. vm_compute. auto. Qed.

(** A tracker should steer the device that was installed with it.  With two, of different types, on one node, both steer the
    last. *)
Theorem tracker_own_device_refuted : ~ (forall plans b l w k cl, proper plans -> holds 0 l ->
  setup rational true LittleEndian (start plans b 100 0) l = Ok w ->
  nth_error (marks (b_pos b) [] (calls 0 0 l)) k = Some (false, cl) -> tracker_device w (cl_node cl) = Ok k).
Proof.
  intros H. assert (X : match demo_script usual with Ok w => tracker_device w 10 = Ok 6 | _ => False end) by (vm_compute; auto).
  destruct (demo_script usual) as [w| | |] eqn:E; try contradiction.
  specialize (H demo_plans demo_before usual w 2 (mkCall 10 (Some 0) 0 0) demo_proper ltac:(unfold usual; cbn; repeat split; lia) E eq_refl).
  change (tracker_device w 10 = Ok 2) in H. rewrite X in H. discriminate H.
Qed.
Print Assumptions tracker_own_device_refuted.

Example tracker_case : match demo_script usual with
  | Ok w => tracker_device w 11 = Ok 5 /\ tracker_constellation w 11 = Ok (Some 1) /\ tracker_device w 10 = Ok 6 /\
      tracker_constellation w 10 = Ok (Some 1) /\ tracker_device w 0 = Assert
  | _ => False end.
Proof. vm_compute. repeat split. Qed.

(** A tracker should follow the constellation of its channel.  It keeps the first one it saw. *)
Theorem tracker_follows_refuted : ~ (forall plans b l1 l2 w1 w2 n o1 m1 o2 m2, proper plans -> holds 0 (l1 ++ l2) ->
  setup rational true LittleEndian (start plans b 100 0) l1 = Ok w1 -> setup rational true LittleEndian w1 l2 = Ok w2 ->
  memo_constellation w1 n (mkMemo None None) = Ok (o1, m1) -> memo_constellation w2 n m1 = Ok (o2, m2) ->
  tracker_constellation w2 n = Ok o2).
Proof.
  set (s1 := [SChannel; SMany [10; 0; 1] (Some 0) 0]). set (s2 := [SMany [2; 3] (Some 0) 1]). intros H.
  assert (X : match demo_script s1 with
     | Ok w => memo_constellation w 10 (mkMemo None None) = Ok (Some 0, mkMemo (Some 0) (Some 0)) /\
         match setup rational true LittleEndian w s2 with Ok w2 => tracker_constellation w2 10 = Ok (Some 1) | _ => False end
     | _ => False end) by (vm_compute; auto).
  destruct (demo_script s1) as [w| | |] eqn:E; try contradiction. destruct X as [X1 X2].
  destruct (setup rational true LittleEndian w s2) as [w2| | |] eqn:E2; try contradiction.
  specialize (H demo_plans demo_before s1 s2 w w2 10 (Some 0) (mkMemo (Some 0) (Some 0)) (Some 0) (mkMemo (Some 0) (Some 0)) demo_proper ltac:(cbn; repeat split; lia) E E2 X1 eq_refl).
  rewrite X2 in H. discriminate H.
Qed.
Print Assumptions tracker_follows_refuted.

(** Links asked for on some nodes should join these.  With the satellites of one constellation and the helper of another they
    join those of the other. *)
Theorem links_on_nodes_refuted : ~ (forall plans b l w d, proper plans -> holds 0 l ->
  setup rational true LittleEndian (start plans b 100 0) l = Ok w -> In d (sw_links w) ->
  exists a, In a (asked [] 0 0 l) /\ In (isl_node d) (snd (fst a))).
Proof.
  set (sc := [SNew [0; 1] 0; SNew [2; 3] 1; SIsl [0; 1] 1]). intros H.
  assert (X : match demo_script sc with Ok w => sw_links w = [mkIsl 2 0; mkIsl 3 0] | _ => False end) by (vm_compute; auto).
  destruct (demo_script sc) as [w| | |] eqn:E; try contradiction.
  destruct (H demo_plans demo_before sc w (mkIsl 2 0) demo_proper ltac:(cbn; repeat split; lia) E) as (a & Ha & Hd); [rewrite X; left; reflexivity|].
  cbn in Ha. destruct Ha as [<-|[]]. cbn in Hd. destruct Hd as [Hd|[Hd|[]]]; discriminate Hd.
Qed.
Print Assumptions links_on_nodes_refuted.

(** Asking twice gives every link twice. *)
Example links_twice : match demo_script [SNew [0; 1] 0; SIsl [0; 1] 0; SIsl [1; 1] 0] with
  | Ok w => sw_links w = [mkIsl 0 0; mkIsl 1 0; mkIsl 0 1; mkIsl 1 1] | _ => False end.
Proof. vm_compute. reflexivity. Qed.
