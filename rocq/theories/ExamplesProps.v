(** * C113–C114: the programs under examples/ *)
From Coq Require Import ZArith QArith List Lia Bool Arith Permutation.
From Verif Require Import Base SatAddrModel AlohaModel ConstellationModel LaunchModel LaunchProofs IslModel GeoTagModel RxModel RxSpec SystemModel SystemSpec SystemProofs SystemMacs SystemProps DownSpec
  RelayModel RelayProps JourneyModel JourneySpec JourneyProofs JourneyProps
  SetupModel SetupSpec SetupProofs SetupRun SetupProps InstanceModel InstanceSpec InstanceProofs InstanceProps FlightModel FlightSpec FlightProofs FlightProps ExamplesModel.
Import ListNotations.
Open Scope nat_scope.

(** ** What the calls of such a script are *)
Lemma marks_fresh : forall pos c h t ns seen, NoDup ns -> (forall n, In n ns -> ~ In n seen) ->
  marks pos seen (map (fun n => mkCall n c h t) ns) = map (fun n => (negb (pos n), mkCall n c h t)) ns.
Proof.
  intros pos c h t. induction ns as [|n ns IH]; intros seen Nd Fr; [reflexivity|]. inversion Nd as [|? ? Nn Nd']; subst. cbn [map marks cl_node].
  assert (E : existsb (Nat.eqb n) seen = false).
  { destruct (existsb (Nat.eqb n) seen) eqn:E; [|reflexivity]. apply existsb_exists in E. destruct E as (x & Hx & Q). apply Nat.eqb_eq in Q. subst x. exfalso. apply (Fr n); [left; reflexivity|exact Hx]. }
  rewrite E, andb_true_r, IH; [reflexivity|exact Nd'|]. intros m Hm [<-|Hs]; [contradiction|]. apply (Fr m); [right; exact Hm|exact Hs].
Qed.

Section Grid.
Variables P S g : nat.
Hypothesis HP : 0 < P.
Hypothesis HS : 0 < S.
Hypothesis BP : (Z.of_nat P <= 65536)%Z.
Hypothesis BS : (Z.of_nat S <= 65536)%Z.
Variable id : Z.
Hypothesis Hid : (0 < id < 65536)%Z.
Variable F : nat.
Variables alt inc : Q.
Notation plans := (one_plan id P S F alt inc).
Notation b := (grid_before P S).

Lemma one_proper : SetupSpec.proper plans.
Proof. intros h. cbn. auto. Qed.

Definition grid_marks (t : nat) : list (bool * call) := map (fun n => (n <? P * S, mkCall n (Some 0) 0 t)) (seq 0 (P * S + g)).
Lemma grid_marks_are : forall t, marks (b_pos b) [] (map (fun n => mkCall n (Some 0) 0 t) (seq 0 (P * S + g))) = grid_marks t.
Proof.
  intros t. rewrite marks_fresh; [|apply seq_NoDup|intros n _ []]. apply map_ext. intros n. cbn [grid_before b_pos]. rewrite Nat.ltb_antisym. reflexivity.
Qed.
Lemma grid_nth : forall t k, nth_error (grid_marks t) k = if k <? P * S + g then Some (k <? P * S, mkCall k (Some 0) 0 t) else None.
Proof.
  intros t k. unfold grid_marks. rewrite nth_error_map. destruct (Nat.ltb_spec k (P * S + g)) as [L|L].
  - rewrite (nth_error_nth' _ 0) by (rewrite seq_length; exact L). rewrite seq_nth by exact L. reflexivity.
  - assert (E : nth_error (seq 0 (P * S + g)) k = None) by (apply nth_error_None; rewrite seq_length; lia). rewrite E. reflexivity.
Qed.
Lemma places_seq : forall (f : bool * call -> bool) (q : nat -> bool) t n s from, (forall k, f (k <? P * S, mkCall k (Some 0) 0 t) = q k) -> from = s ->
  places f from (map (fun n => (n <? P * S, mkCall n (Some 0) 0 t)) (seq s n)) = filter q (seq s n).
Proof.
  intros f q t. induction n as [|n IH]; intros s from Q ->; [reflexivity|]. cbn [seq map places filter]. rewrite Q, (IH (Datatypes.S s)) by auto. destruct (q s); reflexivity.
Qed.
Lemma filter_seq : forall (q : nat -> bool) n s v, (forall k, s <= k < s + n -> q k = v) -> filter q (seq s n) = if v then seq s n else [].
Proof.
  intros q. induction n as [|n IH]; intros s v H; [destruct v; reflexivity|]. cbn [seq filter]. rewrite (H s) by lia. rewrite (IH (Datatypes.S s) v) by (intros k L; apply H; lia). destruct v; reflexivity.
Qed.
Lemma filter_low : filter (fun k => k <? P * S) (seq 0 (P * S + g)) = seq 0 (P * S).
Proof.
  rewrite seq_app, filter_app, (filter_seq _ _ _ true), (filter_seq _ _ _ false), app_nil_r; [reflexivity| |].
  - intros k L. apply Nat.ltb_ge. lia.
  - intros k L. apply Nat.ltb_lt. lia.
Qed.
Lemma filter_high : filter (fun k => negb (k <? P * S)) (seq 0 (P * S + g)) = seq (P * S) g.
Proof.
  rewrite seq_app, filter_app, (filter_seq _ _ _ false), (filter_seq _ _ _ true); [reflexivity| |].
  - intros k L. apply negb_true_iff, Nat.ltb_ge. lia.
  - intros k L. apply negb_false_iff, Nat.ltb_lt. lia.
Qed.
Lemma grid_launches : forall t, places (launch_of 0) 0 (grid_marks t) = seq 0 (P * S).
Proof.
  intros t. unfold grid_marks. rewrite (places_seq _ (fun k => k <? P * S)); [apply filter_low| |reflexivity]. intros k. unfold launch_of. cbn. apply andb_true_r.
Qed.
Lemma grid_ground : forall t, places (ground_at 0) 0 (grid_marks t) = seq (P * S) g.
Proof.
  intros t. unfold grid_marks. rewrite (places_seq _ (fun k => negb (k <? P * S))); [apply filter_high| |reflexivity]. intros k. unfold ground_at, is_ground. cbn. apply andb_true_r.
Qed.
Lemma filter_map' : forall A B (f : B -> bool) (h : A -> B) l, filter f (map h l) = map h (filter (fun x => f (h x)) l).
Proof. intros A B f h. induction l as [|x l IH]; [reflexivity|]. cbn [map filter]. rewrite IH. destruct (f (h x)); reflexivity. Qed.
Lemma grid_sats : forall t h, sats_of b h (map (fun n => mkCall n (Some 0) 0 t) (seq 0 (P * S + g))) = if h =? 0 then seq 0 (P * S) else [].
Proof.
  intros t h. unfold sats_of. rewrite grid_marks_are. unfold grid_marks. rewrite filter_map', map_map. cbn [cl_node snd]. rewrite map_id. unfold launch_of. cbn [fst snd cl_helper].
  destruct h as [|h]; cbn [Nat.eqb].
  - rewrite <- filter_low. apply filter_ext. intros k. apply andb_true_r.
  - rewrite (filter_seq _ _ _ false); [reflexivity|]. intros k _. apply andb_false_r.
Qed.

Lemma grid_fits : forall t, fits plans b (map (fun n => mkCall n (Some 0) 0 t) (seq 0 (P * S + g))).
Proof.
  intros t. constructor; rewrite ?grid_marks_are.
  - intros c H. unfold grid_marks in H. apply in_map_iff in H. destruct H as (n & E & _). injection E as _ <-. discriminate.
  - intros n. unfold grid_marks. rewrite filter_map', map_map. cbn [cl_type snd].
    assert (L : length (filter (fun x => ground_on n (x <? P * S, mkCall x (Some 0) 0 t)) (seq 0 (P * S + g))) <= 1).
    { apply (Nat.le_trans _ (length (filter (fun x => x =? n) (seq 0 (P * S + g))))).
      - generalize (seq 0 (P * S + g)). induction l as [|x l IH]; [cbn; lia|]. cbn [filter]. unfold ground_on at 1, on, is_ground. cbn [fst snd cl_node].
        destruct (x =? n); destruct (x <? P * S); cbn [andb negb length]; lia.
      - assert (Nd : NoDup (filter (fun x => x =? n) (seq 0 (P * S + g)))) by (apply NoDup_filter, seq_NoDup).
        destruct (filter (fun x => x =? n) (seq 0 (P * S + g))) as [|x [|y r]] eqn:E; cbn; try lia. exfalso.
        assert (X : forall z, In z (x :: y :: r) -> z = n) by (intros z; rewrite <- E, filter_In, Nat.eqb_eq; tauto).
        pose proof (X x (or_introl eq_refl)). pose proof (X y (or_intror (or_introl eq_refl))). subst. inversion Nd as [|? ? Nn _]. apply Nn. left. reflexivity. }
    destruct (filter _ _) as [|x [|y r]]; cbn in *; [constructor|constructor; [intros []|constructor]|lia].
  - intros c _ [].
  - intros h. rewrite grid_sats. cbn. destruct (h =? 0); cbn; [rewrite seq_length|]; lia.
Qed.

(** C113.  Scripts of these forms run through, with and without links, with any tracker. *)
Theorem fleet_builds : forall debug ho first t0, exists w, setup rational debug ho (start plans b first t0) (fleet_script P S g) = Ok w.
Proof.
  intros debug ho first t0. apply (script_builds debug ho plans one_proper b first t0 (fleet_script P S g) ltac:(exact Logic.I)).
  split; [repeat constructor|]. split; [|repeat constructor]. cbn [fleet_script calls]. rewrite app_nil_r. apply grid_fits.
Qed.
Theorem grid_builds : forall debug ho first t0, exists w, setup rational debug ho (start plans b first t0) (grid_script P S g) = Ok w.
Proof.
  intros debug ho first t0. apply (script_builds debug ho plans one_proper b first t0 (grid_script P S g) ltac:(exact Logic.I)).
  split; [repeat constructor|]. cbn [grid_script fleet_script app calls asked]. rewrite !app_nil_r. split; [apply grid_fits|]. constructor; [|constructor]. cbn [fst snd].
  split; [rewrite grid_sats; cbn; apply seq_length|]. split; [cbn; apply seq_length|]. exists id. intros n Hn. exists 0. split; [rewrite grid_sats; exact Hn|reflexivity].
Qed.

Lemma elevation_builds : forall debug ho first t0, g = 1 -> exists w, setup rational debug ho (start plans b first t0) (elevation_script P S) = Ok w.
Proof.
  intros debug ho first t0 E. apply (script_builds debug ho plans one_proper b first t0 (elevation_script P S) ltac:(exact Logic.I)).
  split; [repeat constructor|]. split; [|repeat constructor]. cbn [elevation_script fleet_script calls]. rewrite app_nil_r. pose proof (grid_fits 1) as G. rewrite E in G. exact G.
Qed.

Lemma grid_calls : forall t0, calls 0 t0 (grid_script P S g) = map (fun n => mkCall n (Some 0) 0 t0) (seq 0 (P * S + g)).
Proof. intros t0. cbn [grid_script fleet_script app calls]. apply app_nil_r. Qed.

(** What is built is a fleet as in C110: the satellite in plane p, place i is node p S + i, the stations come after. *)
Theorem grid_fleet : forall t0, one_fleet b t0 (grid_script P S g) 0 0 /\
  stations b t0 (grid_script P S g) 0 = seq (P * S) g /\
  (forall p i k, device_at b t0 (grid_script P S g) plans 0 p i k <-> p < P /\ i < S /\ k = p * S + i) /\
  (0 < g -> last_serves b t0 (grid_script P S g) (P * S + g) 0).
Proof.
  intros t0. split; [|split; [|split]].
  - constructor.
    + do 2 eexists. cbn [grid_script fleet_script app asked calls]. reflexivity.
    + reflexivity.
    + rewrite grid_calls, grid_marks_are. intros x H _. unfold grid_marks in H. apply in_map_iff in H. destruct H as (n & E & _). injection E as _ <-. reflexivity.
  - unfold stations. rewrite grid_calls, grid_marks_are. apply grid_ground.
  - intros p i k. unfold device_at, launches. rewrite grid_calls, grid_marks_are, grid_launches. cbn [one_plan pl_P pl_S]. split.
    + intros (Hp & Hi & E). split; [exact Hp|]. split; [exact Hi|]. assert (L : p * S + i < P * S) by nia.
      apply nth_error_nth with (d := 0) in E. rewrite seq_nth in E by exact L. symmetry. exact E.
    + intros (Hp & Hi & ->). split; [exact Hp|]. split; [exact Hi|]. assert (L : p * S + i < P * S) by nia.
      rewrite (nth_error_nth' _ 0) by (rewrite seq_length; exact L). rewrite seq_nth by exact L. reflexivity.
  - intros Hg. destruct g as [|g'] eqn:Eg; [lia|]. exists (P * S + g'), 0. split; [lia|]. split; [|reflexivity].
    pose proof (grid_nth t0 (P * S + g')) as N. rewrite <- Eg in *.
    destruct (Nat.ltb_spec (P * S + g') (P * S + g)) as [_|L]; [|lia]. destruct (Nat.ltb_spec (P * S + g') (P * S)) as [L|_]; [lia|].
    exists (P * S + g'). eexists. rewrite grid_calls, grid_marks_are. split; [exact N|]. split; [reflexivity|]. split; [reflexivity|].
    intros i x L H. rewrite nth_error_map in H. destruct (nth_error (seq 0 (P * S + g)) i) as [y|] eqn:Ey; [|discriminate H]. injection H as <-. cbn.
    apply nth_error_nth with (d := 0) in Ey. rewrite seq_nth in Ey by lia. lia.
Qed.

(** C114.  The ping from station to station (ground2groundping.cc), in every grid and with any number of stations: the instances of
    the strategy are made, with the sizes of the constellation; and if all Interests are tagged with the place of the satellite at
    which station r points, and it stays pointed there, it gets all of them, once all is at rest. *)
Theorem ping_all_partial : forall debug ho first t0 version, 0 < g -> version = None \/ version = Some 1%Z ->
  exists w, setup rational debug ho (start plans b first t0) (grid_script P S g) = Ok w /\
    strategy_new [] version w (P * S + g) = Ok (Some (Z.of_nat P, Z.of_nat S)) /\
    forall t ops st jns r p i, in_order ho plans b t0 (grid_script P S g) 0 (links_at w) t -> aimed ho (plans 0) t ops ->
      fly_mission (built ho w 0 (Z.of_nat P, Z.of_nat S) t) none_mac tt ops = Some (Ok (st, jns)) -> at_rest st -> one_copy (m_up t) -> lossless t ->
      P * S <= r < P * S + g -> p < P -> i < S -> w_a0 (m_up t) r = sat_make ho id (Z.of_nat p) (Z.of_nat i) ->
      (forall x a, ~ In (JTurn x r a) ops) -> (forall x s z, In (JSend x s z) ops -> snd (fst (g_tag (m_set t) z)) = p /\ snd (g_tag (m_set t) z) = i) ->
      Permutation (j_got_at r jns) (map snd (j_sent ops)).
Proof.
  intros debug ho first t0 version Hg Hv. destruct (grid_builds debug ho first t0) as [w E]. exists w. split; [exact E|].
  destruct (grid_fleet t0) as (Fl & St & Dv & Ls). specialize (Ls Hg).
  destruct (instance_made debug ho plans one_proper b first t0 (grid_script P S g) ltac:(exact Logic.I) w E [] version (P * S + g)) as [_ Im].
  assert (Mk : strategy_new [] version w (P * S + g) = Ok (Some (Z.of_nat P, Z.of_nat S))) by (apply Im; split; [reflexivity|]; split; [exact Hv|]; exists 0; auto).
  split; [exact Mk|]. intros t ops st jns r p i Io Ai R Re One Ll Hr Hp Hi A0 Nt Tg.
  pose proof (flight_all debug ho plans one_proper b first t0 (grid_script P S g) ltac:(exact Logic.I) w E 0 0 (P * S + g) Fl version _ Mk Ls t Io ops st jns r p i (p * S + i) Ai R Re One Ll) as G.
  assert (Eq : filter (fun z => (p =? snd (fst (g_tag (m_set t) z))) && (i =? snd (g_tag (m_set t) z))) (map snd (j_sent ops)) = map snd (j_sent ops)).
  { assert (A : forall z, In z (map snd (j_sent ops)) -> (p =? snd (fst (g_tag (m_set t) z))) && (i =? snd (g_tag (m_set t) z)) = true).
    { intros z Hz. apply in_map_iff in Hz. destruct Hz as ([[x s] z'] & <- & Hz). unfold j_sent in Hz. apply in_flat_map in Hz. destruct Hz as (o & Ho & Hz). destruct o; cbn in Hz; try contradiction. destruct Hz as [Hz|[]]. injection Hz as <- <- <-.
      cbn [snd]. destruct (Tg _ _ _ Ho) as [-> ->]. rewrite !Nat.eqb_refl. reflexivity. }
    revert A. generalize (map snd (j_sent ops)). induction l as [|z l IH]; intros A; [reflexivity|]. cbn [filter]. rewrite (A z (or_introl eq_refl)), IH; [reflexivity|]. intros y Hy. apply A. right. exact Hy. }
  rewrite Eq in G. apply G.
  - rewrite St. apply in_seq. lia.
  - apply Dv. auto.
  - exact A0.
  - exact Nt.
Qed.
End Grid.
Print Assumptions fleet_builds.
Print Assumptions grid_builds.
Print Assumptions grid_fleet.
Print Assumptions ping_all_partial.

(** ** The programs as shipped *)
Theorem examples_build_partial : forall debug ho first id alt inc, (0 < id < 65536)%Z ->
  (exists w, setup rational debug ho (start (one_plan id 14 20 1 alt inc) (grid_before 14 20) first 0) (grid_script 14 20 2) = Ok w) /\
  (exists w, setup rational debug ho (start (one_plan id 6 20 1 alt inc) (grid_before 6 20) first 0) (grid_script 6 20 0) = Ok w) /\
  (exists w, setup rational debug ho (start (one_plan id 6 4 1 alt inc) (grid_before 6 4) first 0) (fleet_script 6 4 0) = Ok w) /\
  (forall P S, 0 < P -> 0 < S -> (Z.of_nat P <= 65536)%Z -> (Z.of_nat S <= 65536)%Z ->
     exists w, setup rational debug ho (start (one_plan id P S 1 alt inc) (grid_before P S) first 0) (elevation_script P S) = Ok w) /\
  (exists w, setup rational debug ho (start (one_plan id 2 1 0 alt inc) sputping_before first 0) sputping_script = Ok w) /\
  (exists w, setup rational debug ho (start (one_plan id 2 1 0 alt inc) vostping_before first 0) vostping_script = Ok w).
Proof.
  intros debug ho first id alt inc Hid.
  split; [apply grid_builds; auto; lia|]. split; [apply grid_builds; auto; lia|]. split; [apply fleet_builds; auto; lia|].
  split; [intros P S H1 H2 H3 H4; apply (elevation_builds P S 1); auto|].
  assert (Pr : SetupSpec.proper (one_plan id 2 1 0 alt inc)) by (apply one_proper; auto; lia).
  split; apply (script_builds debug ho _ Pr); try exact Logic.I; (split; [repeat constructor|]; split; [|repeat constructor]).
  all: constructor; try (intros c H; cbn in H; repeat (destruct H as [H|H]; [try discriminate H; try (injection H as <-); cbn; discriminate|]); destruct H).
  all: try (intros c H []).
  all: try (intros h; unfold sats_of; cbn; destruct h; cbn; lia).
  all: intros n; cbn; destruct n as [|[|n]]; cbn; repeat constructor; intros [].
Qed.
Print Assumptions examples_build_partial.

(** All of the programs should.  isl-vostping.cc does not: two satellites are as many as its constellation counts, but links to
    the other forty-eight are made, and those are not there. *)
Theorem islping_builds_refuted : forall debug ho first id alt inc, (0 < id < 65536)%Z ->
  ~ exists w, setup rational debug ho (start (one_plan id 1 50 1 alt inc) islping_before first 0) islping_script = Ok w.
Proof.
  intros debug ho first id alt inc Hid H.
  assert (Pr : SetupSpec.proper (one_plan id 1 50 1 alt inc)) by (apply one_proper; auto; lia).
  apply (script_builds debug ho _ Pr islping_before first 0 islping_script ltac:(exact Logic.I)) in H. destruct H as (_ & _ & H).
  cbn [islping_script asked] in H. inversion H as [|? ? L _]; subst. destruct L as (L & _). cbn in L. discriminate L.
Qed.
Print Assumptions islping_builds_refuted.
Example islping_case : setup rational true LittleEndian (start (one_plan 1 1 50 1 250 60) islping_before 100 0) islping_script = UB.
Proof. vm_compute. reflexivity. Qed.

(** Which nodes the devices of the small programs are on, which stand on the ground and which fly where; isl-vostping.cc fails at the links, not before. *)
Definition flies (b : before) (l : list sop) (p : plan) (at_ : list (nat * nat * nat)) : Prop :=
  forall q i k, device_at b 0 l (fun _ => p) 0 q i k <-> In (q, i, k) at_.
Theorem small_fleets : forall id alt inc, (0 < id < 65536)%Z ->
  (stations sputping_before 0 sputping_script 0 = [0; 1] /\ map cl_node (calls 0 0 sputping_script) = [0; 1; 2; 3] /\ flies sputping_before sputping_script (mkPlan id 2 1 0 alt inc) [(0, 0, 2); (1, 0, 3)]) /\
  (stations vostping_before 0 vostping_script 0 = [1] /\ map cl_node (calls 0 0 vostping_script) = [0; 1] /\ flies vostping_before vostping_script (mkPlan id 2 1 0 alt inc) [(0, 0, 0)]) /\
  (stations islping_before 0 islping_script 0 = [] /\ map cl_node (calls 0 0 islping_script) = [0; 1] /\ flies islping_before islping_script (mkPlan id 1 50 1 alt inc) [(0, 0, 0); (0, 1, 1)] /\
   asked [] 0 0 islping_script = [(calls 0 0 islping_script, [0; 1], 0)] /\
   forall debug ho first, exists w, setup rational debug ho (start (one_plan id 1 50 1 alt inc) islping_before first 0) (removelast islping_script) = Ok w).
Proof.
  intros id alt inc Hid. split; [|split].
  - split; [reflexivity|]. split; [reflexivity|]. intros q i k. unfold device_at. cbn [pl_P pl_S]. change (launches sputping_before 0 sputping_script 0) with [2; 3]. split.
    + intros (A & B & C). assert (i = 0) by lia. subst. destruct q as [|[|q]]; [| |lia]; cbn in C; injection C as <-; cbn; tauto.
    + intros [H|[H|[]]]; injection H as <- <- <-; repeat split; lia.
  - split; [reflexivity|]. split; [reflexivity|]. intros q i k. unfold device_at. cbn [pl_P pl_S]. change (launches vostping_before 0 vostping_script 0) with [0]. split.
    + intros (A & B & C). assert (i = 0) by lia. subst. destruct q as [|[|q]]; [| |lia]; cbn in C; [injection C as <-; cbn; tauto|discriminate C].
    + intros [H|[]]; injection H as <- <- <-; repeat split; lia.
  - split; [reflexivity|]. split; [reflexivity|]. split; [|split; [reflexivity|]].
    + intros q i k. unfold device_at. cbn [pl_P pl_S]. change (launches islping_before 0 islping_script 0) with [0; 1]. split.
      * intros (A & B & C). assert (q = 0) by lia. subst. cbn [Nat.mul Nat.add] in C. destruct i as [|[|i]]; cbn in C; [injection C as <-; cbn; tauto|injection C as <-; cbn; tauto|destruct i; discriminate C].
      * intros [H|[H|[]]]; injection H as <- <- <-; repeat split; lia.
    + intros debug ho first. assert (Pr : SetupSpec.proper (one_plan id 1 50 1 alt inc)) by (apply one_proper; auto; lia).
      apply (script_builds debug ho _ Pr); [exact Logic.I|]. split; [repeat constructor|]. split; [|repeat constructor].
      constructor; try (intros c H; cbn in H; repeat (destruct H as [H|H]; [try discriminate H; try (injection H as <-); cbn; discriminate|]); destruct H).
      all: try (intros c H []). all: try (intros h; unfold sats_of; cbn; destruct h; cbn; lia).
      all: intros n; cbn; destruct n as [|[|n]]; cbn; repeat constructor; intros [].
Qed.
Print Assumptions small_fleets.

(** ** The ping, when the station turns away *)
Definition lone (w : SetupModel.world Q) : mission := mkMission
  (mkSetting BigEndian 0 0 [] [] [] (fun k => GroundFace :: map IslFace (links_at w k)) (fun _ => (1%Z, 0, 1))
    (fun t i _ f => mkReq (Some (1, 0, 1)%Z) f NEW (fun _ => None) (fun _ => false) 0%Z)
    (fun _ _ => 5%Z) (fun _ => 1%Z) (fun _ _ _ => 3%Z) (fun _ _ _ _ => true) (fun _ _ _ => true) 30000%Z)
  (SystemProps.mkNet BigEndian (con_new 0 0 0) (fun _ _ => 10%Z) (fun _ => 1%Z) (fun _ g _ => (20 + Z.of_nat g)%Z) (fun _ p _ _ => p) (fun _ _ _ _ => true)
    (fun _ => 0%Z) (fun _ _ _ => true) TxNone (fun r => sat_make LittleEndian 1 0 (if r =? 3 then 1 else 0)) (fun _ => 0%Z))
  (mkDownlink BigEndian (fun _ _ => 4%Z) (fun _ => 1%Z) (fun _ g _ => (30 + Z.of_nat g)%Z) (fun _ p _ _ => p) (fun _ _ _ _ => true) (fun _ => sat_make LittleEndian 1 0 0) [] (fun _ => 0%Z) (fun _ _ _ => true)
    (fun _ => sat_make LittleEndian 1 0 0)).
Definition lone_ops (turn : bool) := [JSend 0 4 7] ++ (if turn then [JTurn 5 3 (sat_make LittleEndian 1 0 2)] else []) ++ repeat JUp 3 ++ repeat JIsl 3 ++ repeat JDown (if turn then 3 else 4).

Lemma lone_in_order : forall w, in_order LittleEndian (one_plan 1 1 3 0 250 60) (grid_before 1 3) 0 (grid_script 1 3 2) 0 (links_at w) (lone w).
Proof.
  intros w. constructor; cbn [lone m_set m_up m_down].
  - split; [intros; cbn; lia|]. split; [intros t g n; change (0 <= 20 + Z.of_nat g)%Z; lia|]. split; [exact Logic.I|]. intros; cbn; lia.
  - exact Logic.I.
  - intros; cbn; lia.
  - intros; cbn; lia.
  - intros; cbn; lia.
  - intros t g n. change (0 <= 30 + Z.of_nat g)%Z. lia.
  - unfold is_u16. cbn. lia.
  - intros t i n f. cbn. repeat split. discriminate.
  - intros k f _. cbn [g_table]. cbn [In]. rewrite in_map_iff. split; [intros [<-|(j & <- & J)]; eauto|intros [->|(j & -> & J)]; eauto].
  - intros g. cbn [w_a0]. destruct (g =? 3); [exists 0, 1|exists 0, 0]; cbn; repeat split; lia.
Qed.

Notation lone_world := (setup rational true LittleEndian (start (one_plan 1 1 3 0 250 60) (grid_before 1 3) 100 0) (grid_script 1 3 2)).
Notation lone_flight w turn := (fly_mission (built LittleEndian w 0 (1, 3)%Z (lone w)) none_mac tt (lone_ops turn)).
Lemma lone_aimed : forall w turn, aimed LittleEndian (one_plan 1 1 3 0 250 60 0) (lone w) (lone_ops turn).
Proof.
  intros w turn. split.
  - intros x g i _. cbn. lia.
  - intros x g a H. exists 0, 2. split; [cbn; lia|]. split; [cbn; lia|].
    unfold lone_ops in H. rewrite !in_app_iff in H. destruct turn; repeat destruct H as [H|H]; try (apply repeat_spec in H); try discriminate H; try (injection H as <- <- <-; reflexivity); destruct H.
Qed.
Lemma lone_lossless : forall w, lossless (lone w) /\ one_copy (m_up (lone w)).
Proof. intros w. repeat split. Qed.

Example ping_case : match lone_world with
  | Ok w => strategy_new [] None w 5 = Ok (Some (1, 3)%Z) /\
      match lone_flight w false with Some (Ok (st, jns)) => at_rest st /\ j_got jns = [(79%Z, 3, 7%Z)] | _ => False end
  | _ => False end.
Proof. vm_compute. repeat split. Qed.

(** The ping should get to the station whenever it was tagged with the satellite at which the station pointed when it was sent,
    which is how that program tags (ground2groundping.cc:62-76).  It does not if the station is turned to another satellite, as
    its tracker does, before the Interest comes down. *)
Theorem ping_all_refuted : ~ (forall w t ops st jns r,
  lone_world = Ok w -> in_order LittleEndian (one_plan 1 1 3 0 250 60) (grid_before 1 3) 0 (grid_script 1 3 2) 0 (links_at w) t ->
  aimed LittleEndian (one_plan 1 1 3 0 250 60 0) t ops -> fly_mission (built LittleEndian w 0 (1, 3)%Z t) none_mac tt ops = Some (Ok (st, jns)) -> at_rest st ->
  one_copy (m_up t) -> lossless t -> 3 <= r < 5 ->
  (forall o1 x s z o2, ops = o1 ++ JSend x s z :: o2 ->
     points (w_a0 (m_up t) r) r o1 = sat_make LittleEndian 1 (Z.of_nat (snd (fst (g_tag (m_set t) z)))) (Z.of_nat (snd (g_tag (m_set t) z)))) ->
  Permutation (j_got_at r jns) (map snd (j_sent ops))).
Proof.
  intros H.
  assert (X : match lone_world with
    | Ok w => match lone_flight w true with Some (Ok (st, jns)) => at_rest st /\ j_got_at 3 jns = [] | _ => False end
    | _ => False end) by (vm_compute; repeat split).
  destruct lone_world as [w| | |] eqn:E; try contradiction. destruct (lone_flight w true) as [[[st jns]| | |]|] eqn:Fl; try contradiction. destruct X as [Re Got].
  pose proof (H w (lone w) (lone_ops true) st jns 3 eq_refl (lone_in_order w) (lone_aimed w true) Fl Re (proj2 (lone_lossless w)) (proj1 (lone_lossless w)) ltac:(lia)) as Pe.
  rewrite Got in Pe. apply Permutation_nil in Pe; [discriminate Pe|].
  intros o1 x s z o2 Eo. destruct o1 as [|o o1]; [injection Eo as <- <- <- <-; reflexivity|]. exfalso. cbn in Eo. injection Eo as _ Eo.
  assert (Hin : In (JSend x s z) (o1 ++ JSend x s z :: o2)) by (apply in_or_app; right; left; reflexivity). rewrite <- Eo in Hin. cbn in Hin.
  repeat (destruct Hin as [Hin|Hin]; [discriminate Hin|]). destruct Hin.
Qed.
Print Assumptions ping_all_refuted.

(** The sizes of ground2groundping.cc: stations 280 and 281, the satellite at plane 13, place 19 is node 279. *)
Example ping_fleet_case : stations (grid_before 14 20) 0 (grid_script 14 20 2) 0 = [280; 281] /\
  device_at (grid_before 14 20) 0 (grid_script 14 20 2) (one_plan 1 14 20 1 250 60) 0 13 19 279.
Proof. split; [vm_compute; reflexivity|]. split; [cbn; lia|]. split; [cbn; lia|]. vm_compute. reflexivity. Qed.
