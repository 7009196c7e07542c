(** * C110–C111: a scenario built by the helpers, flown *)
From Coq Require Import ZArith QArith List Lia Bool Arith Permutation.
From Verif Require Import Base SatAddrModel AlohaModel DeviceSpec ConstellationModel ConstellationSpec LaunchModel LaunchProofs IslModel GeoTagModel GeoTagNetProps
  RxModel RxSpec SystemModel SystemSpec SystemProofs SystemMacs SystemProps DownSpec RelayModel RelayProps JourneyModel JourneySpec JourneyProofs JourneyProps
  SetupModel SetupSpec SetupProofs SetupRun SetupProps InstanceModel InstanceSpec InstanceProofs InstanceProps FlightModel FlightSpec FlightProofs.
Import ListNotations.
Open Scope nat_scope.

Section Flight.
Variable debug : bool.
Variable ho : host.
Variable plans : nat -> plan.
Hypothesis plans_ok : SetupSpec.proper plans.
Variable b : before.
Variable first : Z.
Variable t0 : nat.
Variable l : list sop.
Hypothesis l_holds : holds 0 l.
Variable w : SetupModel.world Q.
Hypothesis w_ok : setup rational debug ho (start plans b first t0) l = Ok w.
Variables h c nodes : nat.
Hypothesis fleet : one_fleet b t0 l h c.
Variable version : option Z.
Variable sizes : Z * Z.
Hypothesis made : strategy_new [] version w nodes = Ok (Some sizes).
Hypothesis serves : last_serves b t0 l nodes h.
Variable t : mission.
Hypothesis order : in_order ho plans b t0 l h (links_at w) t.
Notation m := (built ho w c sizes t).
Notation P := (pl_P (plans h)).
Notation S := (pl_S (plans h)).
Notation id := (pl_id (plans h)).
Notation D := (launches b t0 l h).

(** A scenario built without an error, with the instances of the strategy made, is ready: its satellites stand where the script
    puts them, its stations are those asked for, and each satellite reacts to an Interest as the instance on its node. *)
Theorem flight_prepared : prepared m /\
  (forall p i k, In (p, i, k) (g_adds (m_set m)) <-> device_at b t0 l plans h p i k) /\
  (forall p i k, device_at b t0 l plans h p i k -> satellite_at m (sat_make ho id (Z.of_nat p) (Z.of_nat i)) k) /\
  v_ground (m_down m) = stations b t0 l c /\
  (forall k, In k D -> exists p i n, nth_error (sw_devs w) k = Some (mkSD n (KSat (sat_make ho id (Z.of_nat p) (Z.of_nat i))) (Some c)) /\
     forall x f j, RelayProps.g_react (m_set m) x j k f = after_receive_interest (instance_net w sizes) ho n (g_table (m_set t) k) (g_request (m_set t) x j k f)).
Proof.
  pose proof (f_prepared debug ho plans plans_ok b first t0 l l_holds w w_ok h c fleet nodes version sizes made serves t order) as Pm.
  destruct (f_built debug ho plans plans_ok b first t0 l l_holds w w_ok h c fleet nodes version sizes made serves t) as (g & addrs & R & Eg & Mem & El & E1 & E2 & E3 & E4 & E5 & E6 & E7).
  pose proof (f_size debug ho plans plans_ok b first t0 l l_holds w w_ok h c fleet) as Ld.
  destruct (plans_ok h) as (HP & HS & BP & BS & HI).
  assert (At : forall p i k, device_at b t0 l plans h p i k -> nth_error (launch_adds S D) (p * S + i) = Some (p, i, k)).
  { intros p i k (Hp & Hi & E). rewrite nth_launch, E. cbn [option_map]. rewrite (Nat.add_comm (p * S) i), Nat.div_add, Nat.mod_add, Nat.div_small, Nat.mod_small by lia. reflexivity. }
  split; [exact Pm|]. split; [|split; [|split]].
  - intros p i k. rewrite E4. split; [|intros H; eapply nth_error_In; apply (At _ _ _ H)].
    intros H. apply In_nth_error in H. destruct H as [j H]. rewrite nth_launch in H. destruct (nth_error D j) as [k'|] eqn:E; [|discriminate H]. injection H as <- <- ->.
    assert (L : j < P * S) by (rewrite <- Ld; apply nth_error_Some; congruence).
    split; [apply Nat.div_lt_upper_bound; lia|]. split; [apply Nat.mod_upper_bound; lia|]. rewrite (Nat.mul_comm (j / S)), <- Nat.div_mod by lia. exact E.
  - intros p i k H. exists (p * S + i), p, i. rewrite E4, E5. split; [apply At, H|].
    rewrite <- (f_addrs debug ho plans plans_ok b first t0 l l_holds w w_ok h c fleet addrs R), nth_error_map, (At _ _ _ H). cbn [option_map snd].
    destruct H as (Hp & Hi & E). rewrite (f_sat debug ho plans plans_ok b first t0 l l_holds w w_ok h c fleet _ _ E), (Nat.add_comm (p * S) i), Nat.div_add, Nat.mod_add, Nat.div_small, Nat.mod_small by lia. reflexivity.
  - unfold built. rewrite (f_view debug ho plans plans_ok b first t0 l l_holds w w_ok h c fleet). reflexivity.
  - intros k K. pose proof K as K'. apply In_nth_error in K'. destruct K' as [j E]. exists (j / S), (j mod S), (node_of (calls 0 t0 l) k). split; [exact (f_dev debug ho plans plans_ok b first t0 l l_holds w w_ok h c fleet j k E)|].
    intros x f i. rewrite (f_react debug ho plans plans_ok b first t0 l l_holds w w_ok h c fleet nodes version sizes made serves t x i k f K).
    rewrite (f_node debug ho plans plans_ok b first t0 l l_holds w w_ok h c fleet k K). reflexivity.
Qed.

Lemma aimed_sensible : forall ops, aimed ho (plans h) t ops -> sensible m ops.
Proof.
  intros ops [Hs Ht]. destruct flight_prepared as (Pm & Ga & Sa & _).
  destruct (f_built debug ho plans plans_ok b first t0 l l_holds w w_ok h c fleet nodes version sizes made serves t) as (g & addrs & R & Eg & Mem & El & E1 & E2 & E3 & _).
  split.
  - intros x g0 i H. rewrite E2, E3. exact (Hs x g0 i H).
  - intros x g0 a H. destruct (Ht x g0 a H) as (q & j & Hq & Hj & ->).
    destruct (nth_error D (q * S + j)) as [k|] eqn:E; [|apply nth_error_None in E; rewrite (f_size debug ho plans plans_ok b first t0 l l_holds w w_ok h c fleet) in E; nia].
    destruct (Sa q j k (conj Hq (conj Hj E))) as (n & p & i & _ & H2). eapply nth_error_In; exact H2.
Qed.

(** Flown with any MAC model of a proper kind, nothing fails and all comes to rest; and no station gets an Interest more often
    than it was sent. *)
Theorem flight_safe : forall M (rx : mac_rx M) m0 ops r, single rx /\ rx_total rx -> aimed ho (plans h) t ops -> fly_mission m rx m0 ops = Some r ->
  exists st jns, r = Ok (st, jns) /\
    (forall o, aimed ho (plans h) t [o] -> can_come st o -> exists st' jns', fly_mission m rx m0 (ops ++ [o]) = Some (Ok (st', jns'))) /\
    (exists ops' st' jns', Forall (fun o => In o [JUp; JIsl; JDown]) ops' /\ fly_mission m rx m0 (ops ++ ops') = Some (Ok (st', jns')) /\ at_rest st') /\
    (one_copy (m_up t) -> forall s i, count_occ Z.eq_dec (j_got_at s jns) i <= count_occ Z.eq_dec (map snd (j_sent ops)) i).
Proof.
  intros M rx m0 ops r Fit Ai R. destruct flight_prepared as (Pm & _ & _ & Vg & _). pose proof (aimed_sensible ops Ai) as Se.
  destruct (journey_safe m rx m0 Pm Fit ops r Se R) as (st & jns & -> & Nx). exists st, jns. split; [reflexivity|]. split; [|split].
  - intros o Ao Co. apply (Nx o); [apply aimed_sensible, Ao|exact Co].
  - exact (journey_rests m rx m0 Pm Fit ops st jns Se R).
  - intros One s i. apply (journey_once m rx m0 Pm Fit ops st jns s i Se R One). rewrite Vg. apply places_NoDup.
Qed.

(** Without losses, once all is at rest, a station of the script that stays pointed at the satellite in (p, i) has got the
    Interests tagged with (p, i) exactly as often as they were sent. *)
Theorem flight_all : forall ops st jns r p i k, aimed ho (plans h) t ops -> fly_mission m none_mac tt ops = Some (Ok (st, jns)) -> at_rest st ->
  one_copy (m_up t) -> lossless t -> In r (stations b t0 l c) -> device_at b t0 l plans h p i k ->
  w_a0 (m_up t) r = sat_make ho id (Z.of_nat p) (Z.of_nat i) -> (forall x a, ~ In (JTurn x r a) ops) ->
  Permutation (j_got_at r jns) (filter (fun z => (p =? snd (fst (g_tag (m_set t) z))) && (i =? snd (g_tag (m_set t) z))) (map snd (j_sent ops))).
Proof.
  intros ops st jns r p i k Ai R Re One (L1 & L2 & L3 & L4 & L5 & L6) Hr Da A0 Nt. destruct flight_prepared as (Pm & Ga & Sa & Vg & _). pose proof (aimed_sensible ops Ai) as Se.
  pose proof (Sa p i k Da) as At.
  destruct (journey_all m ops st jns r k Pm Se R Re One L1 L2 L3 L4 L5 (fun x u => L6 x u r k)) as ([p' i'] & Hs & Pe).
  - rewrite Vg. apply places_NoDup.
  - rewrite Vg. exact Hr.
  - change (w_a0 (m_up m) r) with (w_a0 (m_up t) r). rewrite A0. exact At.
  - exact Nt.
  - apply Ga in Hs. destruct Hs as (Hp' & Hi' & E'), Da as (Hp & Hi & E). cbn [fst snd] in Pe.
    assert (Eq : p * S + i = p' * S + i').
    { apply (proj1 (NoDup_nth_error D) (f_nodup b t0 l h)); [apply nth_error_Some; congruence|congruence]. }
    assert (p = p') by nia. subst p'. assert (i = i') by lia. subst i'. exact Pe.
Qed.
(** The stations have different hardware addresses, those the helper gave them: a frame says which of them sent it. *)
Theorem flight_addresses : forall g, In g (stations b t0 l c) ->
  (exists n, nth_error (sw_devs w) g = Some (mkSD n (KGround (w_addr (m_up m) g)) (Some c))) /\
  forall g', In g' (stations b t0 l c) -> w_addr (m_up m) g' = w_addr (m_up m) g -> g' = g.
Proof.
  assert (K : forall g, In g (stations b t0 l c) -> exists x, nth_error (marks (b_pos b) [] (calls 0 t0 l)) g = Some x /\ is_ground x = true /\
    exists n, nth_error (sw_devs w) g = Some (mkSD n (KGround (w_addr (m_up m) g)) (Some c)) /\
    w_addr (m_up m) g = (first + Z.of_nat (rank is_ground g (marks (b_pos b) [] (calls 0 t0 l))))%Z).
  { intros g Hg. destruct (script_devices debug ho plans plans_ok b first t0 l l_holds w w_ok) as (_ & Hd & _).
    unfold stations in Hg. apply places_in in Hg. destruct Hg as (i0 & [m0 cl] & Eg & Hx & F). cbn in Eg. subst i0.
    exists (m0, cl). split; [exact Hx|]. unfold ground_at in F. apply andb_prop in F. destruct F as [F1 F2]. split; [exact F1|].
    pose proof (Hd g _ Hx) as E. unfold is_ground in F1. cbn [fst snd] in F1, F2. destruct m0; [discriminate F1|]. unfold device_of in E. cbn [fst snd] in E.
    destruct (cl_chan cl) as [i|] eqn:Ec; [|discriminate F2]. apply Nat.eqb_eq in F2. subst i. exists (cl_node cl).
    unfold built. cbn [m_up w_addr]. rewrite E. split; reflexivity. }
  intros g Hg. destruct (K g Hg) as (x & Hx & Fx & n & E & V). split; [eauto|]. intros g' Hg' Q0.
  destruct (K g' Hg') as (x' & Hx' & Fx' & n' & E' & V').
  pose proof (places_rank _ is_ground _ 0 g x Hx Fx) as R1. pose proof (places_rank _ is_ground _ 0 g' x' Hx' Fx') as R2.
  assert (Er : rank is_ground g' (marks (b_pos b) [] (calls 0 t0 l)) = rank is_ground g (marks (b_pos b) [] (calls 0 t0 l))) by lia.
  rewrite Er, R1 in R2. cbn in R2. congruence.
Qed.
End Flight.
Print Assumptions flight_addresses.
Print Assumptions flight_prepared.
Print Assumptions flight_safe.
Print Assumptions flight_all.

(** * A case: three planes of four, three stations; the script of C76 with links, the journey of C75. *)
Definition voyage_plans (_ : nat) : plan := mkPlan 7 3 4 0 1000 60.
Definition voyage_before : before := mkBefore (fun n => 12 <=? n) (fun _ => false) (fun _ => []).
Definition voyage_script : list sop := [SNew (seq 0 15) 0; SIsl (seq 0 12) 0].
Definition voyage_start := start voyage_plans voyage_before 100 0.
Definition voyage_world := setup rational true LittleEndian voyage_start voyage_script.
Definition voyage_sat (k : nat) : sat_address := sat_make LittleEndian 7 (Z.of_nat (k / 4)) (Z.of_nat (k mod 4)).
Definition voyage_a0 (g : nat) : sat_address := voyage_sat (if g =? 13 then 10 else 0).

Definition voyage (w : SetupModel.world Q) : mission := mkMission
  (mkSetting BigEndian 0 0 [] [] [] (fun k => GroundFace :: map IslFace (links_at w k)) case_tag
    (fun t i _ f => ex_ctx (fst (fst (case_tag i)), Z.of_nat (snd (fst (case_tag i))), Z.of_nat (snd (case_tag i))) f)
    (fun _ _ => 5%Z) (fun _ => 1%Z) (fun _ _ _ => 3%Z) (fun _ _ _ _ => true) (fun _ _ _ => true) 30000%Z)
  (SystemProps.mkNet BigEndian (con_new 0 0 0) (fun _ _ => 10%Z) (fun _ => 1%Z) (fun _ g _ => (20 + Z.of_nat g)%Z) (fun _ p _ _ => p) (fun _ _ _ _ => true)
    (fun _ => 0%Z) (fun _ _ _ => true) TxNone voyage_a0 (fun _ => 0%Z))
  (mkDownlink BigEndian (fun _ _ => 4%Z) (fun _ => 1%Z) (fun _ g _ => (30 + Z.of_nat g)%Z) (fun _ p _ _ => p) (fun _ _ _ _ => true) voyage_sat [] (fun _ => 0%Z) (fun _ _ _ => true) voyage_a0).

Definition voyage_ops := [JSend 0 12 1; JSend 0 13 11; JSend 1 12 21] ++ repeat JUp 8 ++ repeat JIsl 6 ++ [JUp] ++ repeat JIsl 18 ++ repeat JDown 3 ++ [JTurn 82 14 (voyage_sat 10)] ++ repeat JDown 12.

Example voyage_fleet : SetupSpec.proper voyage_plans /\ holds 0 voyage_script /\ one_fleet voyage_before 0 voyage_script 0 0 /\ last_serves voyage_before 0 voyage_script 15 0 /\
  stations voyage_before 0 voyage_script 0 = [12; 13; 14] /\ device_at voyage_before 0 voyage_script voyage_plans 0 2 2 10.
Proof.
  split; [intros h; cbn; repeat split; lia|]. split; [exact Logic.I|]. split; [|split; [|split]].
  - constructor.
    + do 2 eexists. reflexivity.
    + reflexivity.
    + intros x H _. cbn in H. repeat (destruct H as [H|H]; [try discriminate H; injection H as <-; reflexivity|]). destruct H.
  - exists 14, 0. split; [reflexivity|]. split; [|reflexivity]. exists 14, (mkCall 14 (Some 0) 0 0). split; [reflexivity|]. split; [reflexivity|]. split; [reflexivity|].
    intros i x L H. do 14 (destruct i as [|i]; [cbn in H; injection H as <-; cbn; lia|]). lia.
  - reflexivity.
  - repeat split; cbn; lia.
Qed.

Example voyage_in_order : forall w, in_order LittleEndian voyage_plans voyage_before 0 voyage_script 0 (links_at w) (voyage w).
Proof.
  intros w. constructor; cbn [voyage m_set m_up m_down].
  - split; [intros; cbn; lia|]. split; [intros t g n; change (0 <= 20 + Z.of_nat g)%Z; lia|]. split; [exact Logic.I|]. intros; cbn; lia.
  - exact Logic.I.
  - intros; cbn; lia.
  - intros; cbn; lia.
  - intros; cbn; lia.
  - intros t g n. change (0 <= 30 + Z.of_nat g)%Z. lia.
  - unfold is_u16. cbn. lia.
  - intros t i n f. cbn [ex_ctx rq_tag rq_ingress rq_sup rq_scope]. repeat split. discriminate.
  - intros k f _. cbn [g_table]. cbn [In]. rewrite in_map_iff. split; [intros [<-|(j & <- & J)]; eauto|intros [->|(j & -> & J)]; eauto].
  - intros g. cbn [w_a0]. unfold voyage_a0. destruct (g =? 13); [exists 2, 2|exists 0, 0]; cbn; repeat split; lia.
Qed.

Example voyage_aimed : aimed LittleEndian (voyage_plans 0) (voyage (voyage_start)) voyage_ops.
Proof.
  split.
  - intros t g b H. assert (E : (b = 1 \/ b = 11 \/ b = 21)%Z).
    { unfold voyage_ops in H. rewrite !in_app_iff in H. repeat destruct H as [H|H]; try (apply repeat_spec in H); try discriminate H; try (injection H as <- <- <-; auto); destruct H. }
    destruct E as [->|[->| ->]]; cbn; lia.
  - intros t g a H. exists 2, 2. split; [cbn; lia|]. split; [cbn; lia|].
    unfold voyage_ops in H. rewrite !in_app_iff in H. repeat destruct H as [H|H]; try (apply repeat_spec in H); try discriminate H; try (injection H as <- <- <-; reflexivity); destruct H.
Qed.

(** Interest 1, tagged for (2,2), gets to stations 13 and, turned in time, 14; 11, tagged for (0,0), to station 12; nobody is
    pointed at the satellite for which 21 is tagged. *)
Example voyage_case : match voyage_world with
  | Ok w => strategy_new [] None w 15 = Ok (Some (3, 4)%Z) /\
      match fly_mission (built LittleEndian w 0 (3, 4)%Z (voyage w)) none_mac tt voyage_ops with
      | Some (Ok (st, jns)) => at_rest st /\ j_got jns = [(113%Z, 13, 1%Z); (113%Z, 12, 11%Z); (114%Z, 14, 1%Z)]
      | _ => False end
  | _ => False end.
Proof. vm_compute. repeat split. Qed.
