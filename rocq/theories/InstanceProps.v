(** C100 and C101: which grid an instance of the strategy uses, and whether Interests then get to the satellite tagged. *)
From Coq Require Import ZArith QArith List Lia Bool Arith.
From Verif Require Import Base SatAddrModel ConstellationModel ConstellationSpec LaunchModel IslModel IslSpec IslProofs IslProps GeoTagModel GeoTagSpec
  GeoTagProofs GeoTagProps GeoTagRoute GeoTagNetProps SetupModel SetupSpec SetupProofs SetupRun SetupProps RelayProps InstanceModel InstanceSpec InstanceProofs.
Import ListNotations.
Open Scope nat_scope.

Section Instances.
Variable debug : bool.
Variable ho : host.
Variable plans : nat -> plan.
Hypothesis plans_ok : proper plans.
Variable b : before.
Variable first : Z.
Variable t0 : nat.
Variable l : list sop.
Hypothesis l_holds : holds 0 l.
Variable w : world Q.
Hypothesis w_ok : setup rational debug ho (start plans b first t0) l = Ok w.

Let cs := calls 0 t0 l.

(** C100.  After any script, and for any number of nodes made: a name with parameters or of another version is refused; any
    other makes an instance just when the first device of the last node is that of a station whose channel was told of a
    constellation, and its sizes are those of that constellation. *)
Theorem instance_made : forall params version nodes,
  (strategy_new params version w nodes = Ok None <-> params <> [] \/ exists v, version = Some v /\ v <> 1%Z) /\
  (forall P S, strategy_new params version w nodes = Ok (Some (P, S)) <->
     params = [] /\ (version = None \/ version = Some 1%Z) /\
     exists h, last_serves b t0 l nodes h /\ P = Z.of_nat (pl_P (plans h)) /\ S = Z.of_nat (pl_S (plans h))).
Proof.
  intros params version nodes. unfold strategy_new. destruct params as [|x params].
  2:{ split; [split; [intros _; left; discriminate|reflexivity]|]. intros P S. split; [discriminate|]. intros [H _]. discriminate H. }
  destruct version as [v|].
  - destruct (Z.eqb_spec v 1) as [->|N]; cbn [negb].
    + split.
      * split; [destruct (strategy_sizes w nodes); discriminate|]. intros [H|(v & E & N)]; [contradiction|]. congruence.
      * intros P S. rewrite <- (i_serves debug ho plans plans_ok b first t0 l l_holds w w_ok nodes P S). destruct (strategy_sizes w nodes) as [[P' S']| | |]; cbn [rbind]; split; try discriminate.
        -- intros E. injection E as <- <-. auto.
        -- intros (_ & _ & E). injection E as <- <-. reflexivity.
        -- intros (_ & _ & E). discriminate E.
        -- intros (_ & _ & E). discriminate E.
        -- intros (_ & _ & E). discriminate E.
    + split.
      * split; [intros _; right; exists v; auto|reflexivity].
      * intros P S. split; [discriminate|]. intros (_ & [E|E] & _); congruence.
  - split.
    + split; [destruct (strategy_sizes w nodes); discriminate|]. intros [H|(v & E & N)]; [contradiction|discriminate E].
    + intros P S. rewrite <- (i_serves debug ho plans plans_ok b first t0 l l_holds w w_ok nodes P S). destruct (strategy_sizes w nodes) as [[P' S']| | |]; cbn [rbind]; split; try discriminate.
      * intros E. injection E as <- <-. auto.
      * intros (_ & _ & E). injection E as <- <-. reflexivity.
      * intros (_ & _ & E). discriminate E.
      * intros (_ & _ & E). discriminate E.
      * intros (_ & _ & E). discriminate E.
Qed.

(** Where no instance can be made: it is an assertion if there is no node or the last has no device, else a null pointer is followed. *)
Theorem instance_fails : forall version nodes, version = None \/ version = Some 1%Z ->
  (strategy_new [] version w nodes = Assert <-> forall x, In x cs -> S (cl_node x) <> nodes) /\
  (strategy_new [] version w nodes = UB <-> (exists x, In x cs /\ S (cl_node x) = nodes) /\ forall h, ~ last_serves b t0 l nodes h).
Proof.
  intros version nodes V. assert (E : strategy_new [] version w nodes = do s <- strategy_sizes w nodes ; Ok (Some s)) by (destruct V as [->| ->]; reflexivity). rewrite E. clear E.
  destruct (i_asserts debug ho plans plans_ok b first t0 l l_holds w w_ok nodes) as (A & Na). fold cs in A.
  pose proof (i_serves debug ho plans plans_ok b first t0 l l_holds w w_ok nodes) as Sv.
  assert (No : (exists x, In x cs /\ S (cl_node x) = nodes) -> ~ forall x, In x cs -> S (cl_node x) <> nodes) by (intros (x & H1 & H2) H; exact (H x H1 H2)).
  assert (Ex : (exists x, In x cs /\ S (cl_node x) = nodes) \/ forall x, In x cs -> S (cl_node x) <> nodes).
  { clear. induction cs as [|y r IH]; [right; intros x []|]. destruct (Nat.eq_dec (S (cl_node y)) nodes) as [E|E]; [left; exists y; split; [left; reflexivity|exact E]|].
    destruct IH as [(x & H1 & H2)|IH]; [left; exists x; split; [right; exact H1|exact H2]|]. right. intros x [<-|Hx]; [exact E|exact (IH x Hx)]. }
  destruct (strategy_sizes w nodes) as [[P S0]| | |] eqn:Es; cbn [rbind].
  - split; [split; [discriminate|intros H; apply A in H; discriminate H]|]. split; [discriminate|]. intros (_ & H). destruct (proj1 (Sv P S0) eq_refl) as (h & L & _). destruct (H h L).
  - split; [exact (conj (fun _ => proj1 A eq_refl) (fun _ => eq_refl))|]. split; [discriminate|]. intros (H & _). exfalso. exact (No H (proj1 A eq_refl)).
  - contradiction.
  - split; [split; [discriminate|intros H; apply A in H; discriminate H]|]. split; [|reflexivity]. intros _. split.
    + destruct Ex as [Ex|Ex]; [exact Ex|]. apply A in Ex. discriminate Ex.
    + intros h L. pose proof (proj2 (Sv _ _) (ex_intro _ h (conj L (conj eq_refl eq_refl)))) as X. discriminate X.
Qed.

(** C101.  Any number of constellations, channels and stations; links of constellation [h] were asked for, once or more; the
    instances are made when the last node serves [h].  An Interest that comes from the ground to any satellite of [h], tagged
    for any other, goes by a shortest way and is sent to the ground there. *)
Theorem instance_delivers_partial : forall nodes h version sizes nh ctx cid p i src q j dst,
  strategy_new [] version w nodes = Ok (Some sizes) -> last_serves b t0 l nodes h -> linked t0 l h ->
  stands b plans h cs p i src -> stands b plans h cs q j dst ->
  (forall n f, In n (sats_of b h cs) -> (In f (nh n) <-> f = GroundFace \/ exists k, f = IslFace k /\ In (IslModel.mkIsl n k) (sw_links w))) ->
  (forall n f, rq_tag (ctx n f) = Some (cid, Z.of_nat q, Z.of_nat j) /\ rq_ingress (ctx n f) = f /\ rq_sup (ctx n f) <> SUPPRESS /\
     forall g, rq_scope (ctx n f) g = false) ->
  exists path,
    Z.of_nat (length path) = (ringdist (Z.of_nat (pl_P (plans h))) (Z.of_nat p) (Z.of_nat q) + ringdist (Z.of_nat (pl_S (plans h))) (Z.of_nat i) (Z.of_nat j))%Z /\
    route (link_ends (sw_links w)) (fun n f => after_receive_interest (instance_net w sizes) ho n (nh n) (ctx n f)) src GroundFace path dst.
Proof.
  intros nodes h version [P S] nh ctx cid p i src q j dst Mk Sv Lk (Hp & Hi & Es) (Hq & Hj & Ed) Hnh Hctx.
  assert (Sz : P = Z.of_nat (pl_P (plans h)) /\ S = Z.of_nat (pl_S (plans h))).
  { destruct (proj1 (proj2 (instance_made [] version nodes) P S) Mk) as (_ & _ & h' & Sv' & -> & ->).
    enough (h' = h) as -> by auto. destruct Sv as (n & c & E & (k & cl & Hk & En & Ec & Bf) & Et), Sv' as (n' & c' & E' & (k' & cl' & Hk' & En' & Ec' & Bf') & Et').
    assert (n = n') by congruence. pose proof (mk_nth b _ _ _ Hk) as Ck. pose proof (mk_nth b _ _ _ Hk') as Ck'. cbn [snd] in Ck, Ck'.
    assert (k = k').
    { destruct (Nat.lt_trichotomy k k') as [L|[L|L]]; [exfalso; apply (Bf' k cl L Ck); congruence|exact L|exfalso; apply (Bf k' cl' L Ck'); congruence]. }
    subst k'. congruence. }
  destruct Sz as [-> ->].
  destruct (i_inv debug ho plans plans_ok b first t0 l l_holds w w_ok) as (nets & N & _ & I).
  assert (El : link_ends (sw_links w) = concat nets) by (rewrite (SetupProofs.i_links _ _ _ _ _ _ _ _ _ I); apply link_ends_pairs).
  assert (Nd : forall p i n, p < pl_P (plans h) -> i < pl_S (plans h) -> nth_error (sats_of b h cs) (p * pl_S (plans h) + i) = Some n -> i_node plans b t0 l h (p, i) = n).
  { intros p' i' n _ _ E. unfold i_node. cbn [fst snd]. apply nth_error_nth. exact E. }
  rewrite <- (Nd _ _ _ Hp Hi Es), <- (Nd _ _ _ Hq Hj Ed). destruct (plans_ok h) as (_ & _ & B1 & B2 & _).
  pose proof (g_delivers (instance_net w (Z.of_nat (pl_P (plans h)), Z.of_nat (pl_S (plans h)))) ho (pl_P (plans h)) (pl_S (plans h)) (i_node plans b t0 l h) B1 B2
    (conj eq_refl eq_refl)) as G. cbn [nw_addr nw_links instance_net] in G. rewrite El in G. rewrite El.
  apply (G (i_named debug ho plans plans_ok b first t0 l l_holds w w_ok h Lk) (i_ends debug ho plans plans_ok b first t0 l l_holds w w_ok h Lk nets N)
    (InstanceProofs.i_links debug ho plans plans_ok b first t0 l l_holds w w_ok h Lk nets N) nh ctx cid q j Hq Hj); auto.
  intros p' i' f Hp' Hi'.
  assert (In_ : In (i_node plans b t0 l h (p', i')) (sats_of b h cs)) by (apply nth_error_In with (n := p' * pl_S (plans h) + i'); apply (i_at debug ho plans plans_ok b first t0 l l_holds w w_ok h Lk p' i' Hp' Hi')).
  rewrite (Hnh _ f In_). rewrite (SetupProofs.i_links _ _ _ _ _ _ _ _ _ I). split.
  - intros [->|(k & -> & K)]; [left; reflexivity|]. apply in_install in K. destruct K as (j' & m & -> & E). right. exists j', m. auto.
  - intros [->|(k & m & -> & E)]; [left; reflexivity|]. right. exists k. split; [reflexivity|]. apply in_install. exists k, m. auto.
Qed.
End Instances.
Print Assumptions instance_made.
Print Assumptions instance_fails.
Print Assumptions instance_delivers_partial.

(** * Cases *)

(** Two constellations, of five planes of two and of one plane of two; nodes from 12 on have a position. *)
Definition pair_plans (h : nat) : plan := mkPlan (Z.of_nat (Nat.min h 1) + 1) (match h with 0 => 5 | _ => 1 end) 2 0 1000 60.
Definition pair_before : before := mkBefore (fun n => 12 <=? n) (fun _ => false) (fun _ => []).
Notation pair_script l := (setup rational true LittleEndian (start pair_plans pair_before 100 0) l).
Lemma pair_proper : proper pair_plans.
Proof. intros h. unfold pair_plans. cbn. pose proof (Nat.le_min_r h 1). destruct h; repeat split; cbn; lia. Qed.

Definition one_after_other : list sop := [SNew (seq 0 10 ++ [12]) 0; SNew [10; 11; 13] 1; SIsl (seq 0 10) 0].
Definition pair_faces (w : world Q) (n : nat) : list face := GroundFace :: map (fun d => IslFace (isl_chan d)) (filter (fun d => isl_node d =? n) (sw_links w)).
Definition pair_ctx (q j : Z) (n : nat) (f : face) : request := mkReq (Some (1, q, j)%Z) f NEW (fun _ => None) (fun _ => false) 0.

Lemma pair_table : forall w n f, In f (pair_faces w n) <-> f = GroundFace \/ exists k, f = IslFace k /\ In (IslModel.mkIsl n k) (sw_links w).
Proof.
  intros w n f. unfold pair_faces. cbn [In]. rewrite in_map_iff. split.
  - intros [<-|([d k] & <- & H)]; [left; reflexivity|]. apply filter_In in H. destruct H as [H E]. cbn [isl_node isl_chan] in *. apply Nat.eqb_eq in E. subst d. right. eauto.
  - intros [->|(k & -> & H)]; [left; reflexivity|]. right. exists (IslModel.mkIsl n k). split; [reflexivity|]. apply filter_In. split; [exact H|]. cbn. apply Nat.eqb_refl.
Qed.

Example instance_made_case : match pair_script one_after_other with
  | Ok w => strategy_new [] None w 13 = Ok (Some (5, 2)%Z) /\ strategy_new [] (Some 1%Z) w 14 = Ok (Some (1, 2)%Z) /\
      strategy_new [] None w 12 = UB /\ strategy_new [] None w 15 = Assert /\ strategy_new [] None w 0 = Assert /\
      strategy_new [] (Some 2%Z) w 12 = Ok None /\ strategy_new [7%Z] None w 13 = Ok None
  | _ => False end.
Proof. vm_compute. repeat split. Qed.

Example instance_serves_case : last_serves pair_before 0 one_after_other 13 0 /\ linked 0 one_after_other 0 /\
  stands pair_before pair_plans 0 (calls 0 0 one_after_other) 3 1 7.
Proof.
  split; [|split].
  - exists 12, 0. split; [reflexivity|]. split; [|reflexivity]. exists 10, (mkCall 12 (Some 0) 0 0). split; [reflexivity|]. split; [reflexivity|]. split; [reflexivity|].
    intros i x L H. do 10 (destruct i as [|i]; [cbn in H; injection H as <-; cbn; lia|]). lia.
  - exists (calls 0 0 one_after_other), (seq 0 10). left. reflexivity.
  - split; [cbn; lia|]. split; [cbn; lia|reflexivity].
Qed.

(** With the sizes of the first, from (0,0) to (4,1): across the seam, then along the plane. *)
Example instance_delivers_case : match pair_script one_after_other with
  | Ok w => let handle n f := after_receive_interest (instance_net w (5, 2)%Z) LittleEndian n (pair_faces w n) (pair_ctx 4 1 n f) in
      exists k k', handle 0 GroundFace = Ok [SendInterest (IslFace k)] /\ nth_error (link_ends (sw_links w)) k = Some (8, 0) /\
      handle 8 (IslFace k) = Ok [SendInterest (IslFace k')] /\ nth_error (link_ends (sw_links w)) k' = Some (8, 9) /\
      handle 9 (IslFace k') = Ok [SendInterest GroundFace]
  | _ => False end.
Proof. vm_compute. do 2 eexists. repeat split. Qed.

(** A scenario with a station in service should be able to use the strategy.  Not if a satellite, or any other node, was made
    after the last station. *)
Theorem instance_made_refuted : ~ (forall plans b l w nodes n c h, proper plans -> holds 0 l ->
  setup rational true LittleEndian (start plans b 100 0) l = Ok w -> (forall x, In x (calls 0 0 l) -> cl_node x < nodes) ->
  n < nodes -> station_first b (calls 0 0 l) n c -> nth_error (told l []) c = Some (Some h) ->
  exists sizes, strategy_new [] None w nodes = Ok (Some sizes)).
Proof.
  set (bf := mkBefore (fun n => n =? 0) (fun _ => false) (fun _ => [])). set (sc := [SNew [0; 1; 2] 1]). intros H.
  assert (X : match setup rational true LittleEndian (start pair_plans bf 100 0) sc with Ok w => strategy_new [] None w 3 = UB | _ => False end) by (vm_compute; reflexivity).
  destruct (setup rational true LittleEndian (start pair_plans bf 100 0) sc) as [w| | |] eqn:E; try contradiction.
  destruct (H pair_plans bf sc w 3 0 0 1 pair_proper ltac:(cbn; auto) E) as (sizes & Y).
  - intros x Hx. cbn in Hx. destruct Hx as [<-|[<-|[<-|[]]]]; cbn; lia.
  - lia.
  - exists 0, (mkCall 0 (Some 0) 1 0). repeat split. intros i x L. lia.
  - reflexivity.
  - rewrite X in Y. discriminate Y.
Qed.
Print Assumptions instance_made_refuted.

(** Interests should get to the satellite tagged in every constellation with links.  All instances use the sizes of the
    constellation of the last station: here a satellite of five planes takes itself for the neighbour of plane 4 and sends the
    Interest back to the ground. *)
Theorem instance_delivers_refuted : ~ (forall plans b l w nodes h sizes p i src q j dst,
  proper plans -> holds 0 l -> setup rational true LittleEndian (start plans b 100 0) l = Ok w ->
  strategy_new [] None w nodes = Ok (Some sizes) -> linked 0 l h ->
  stands b plans h (calls 0 0 l) p i src -> stands b plans h (calls 0 0 l) q j dst ->
  exists path, route (link_ends (sw_links w))
    (fun n f => after_receive_interest (instance_net w sizes) LittleEndian n (pair_faces w n) (pair_ctx (Z.of_nat q) (Z.of_nat j) n f)) src GroundFace path dst).
Proof.
  intros H.
  assert (X : match pair_script one_after_other with
    | Ok w => strategy_new [] None w 14 = Ok (Some (1, 2)%Z) /\
        after_receive_interest (instance_net w (1, 2)%Z) LittleEndian 0 (pair_faces w 0) (pair_ctx 4 0 0 GroundFace) = Ok [SendInterest GroundFace]
    | _ => False end) by (vm_compute; auto).
  destruct (pair_script one_after_other) as [w| | |] eqn:E; try contradiction. destruct X as [X1 X2].
  destruct (H pair_plans pair_before one_after_other w 14 0 (1, 2)%Z 0 0 0 4 0 8 pair_proper ltac:(cbn; auto) E X1) as (path & R).
  - exists (calls 0 0 one_after_other), (seq 0 10). left. reflexivity.
  - split; [cbn; lia|]. split; [cbn; lia|reflexivity].
  - split; [cbn; lia|]. split; [cbn; lia|reflexivity].
  - inversion R as [|? ? k m path' last' Hh]; subst. change (Z.of_nat 4) with 4%Z in Hh. change (Z.of_nat 0) with 0%Z in Hh. rewrite X2 in Hh. discriminate Hh.
Qed.
Print Assumptions instance_delivers_refuted.
