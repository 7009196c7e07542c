(** C128: what a device answers of its kind is what becomes of its frames. *)
From Coq Require Import ZArith List Lia Bool Arith.
From Verif Require Import Base SatAddrModel ConstellationModel ConstellationSpec ChannelModel NetDevModel NetDevSpec NetDevProofs NetDevProps.
Import ListNotations.
Open Scope nat_scope.

(** * What is claimed *)

(** The devices at which the channel has a frame arrive. *)
Definition reached (os : list outcome) : list nat :=
  flat_map (fun o => match o with Dropped _ => [] | AtSat _ s _ _ _ _ _ => [s] | AtGround _ g _ _ _ _ _ => [g] end) os.

(** The devices that a frame of [d] reaches, whatever the frame, the constellation and the models of the channel are. *)
Inductive frame_reaches (w : nworld) (d : nat) : list nat -> Prop :=
| reaches_up : forall c h tx delay loss success ga con u rate dst proto power t os,
    nd_class (nw_dev w d) = GroundSta -> nd_object (nw_dev w d) Chan = Some c ->
    transmit2sat h tx delay loss success ga (mkGS con (gs_ground (nw_gs w c))) u rate d dst proto power = Ok (t, os) ->
    frame_reaches w d (reached os)
| reaches_down : forall c delay loss success sa u rate proto power,
    nd_class (nw_dev w d) = SatDown -> nd_object (nw_dev w d) Chan = Some c ->
    frame_reaches w d (reached (transmit2ground delay loss success sa (nw_gs w c) u rate d proto power))
| reaches_side : nd_class (nw_dev w d) = SatSide -> frame_reaches w d (nd_heard_by w d).

Section Kinds.
Variable h : host.
Variables mac_type sat_type : Z.
Variable mob : nat -> mobility.
Variable success : option (nat -> nat -> bool).
Notation run := (nd_run h mac_type sat_type mob success).

(** A frame of a device of this class never reaches more than one device. *)
Definition one_to_one (k : dclass) : Prop :=
  forall cls l w sg d r, run (nw_new cls) l = Some (Ok (w, sg)) -> cls d = k -> frame_reaches w d r -> length r <= 1.
(** It can reach as many as there are. *)
Definition one_to_many (k : dclass) : Prop :=
  forall n, exists cls l w sg d r, run (nw_new cls) l = Some (Ok (w, sg)) /\ cls d = k /\ frame_reaches w d r /\ NoDup r /\ length r = n.

(** * Proofs *)

Lemma to_each_reaches : forall delay loss sa l u rate src proto power, reached (to_each delay loss None sa l u rate src proto power) = l.
Proof. intros delay loss sa l u rate src proto power. induction l as [|g l IH]; [reflexivity|]. cbn [to_each gs_succeeds]. unfold reached in *. cbn [flat_map app]. rewrite IH. reflexivity. Qed.

Definition stations_only (w : nworld) (ds : list nat) : Prop := Forall (fun d => nd_class (nw_dev w d) = GroundSta) ds.
Definition all_join (m : nat) (ds : list nat) : program := flat_map (fun d => [(d, NNode (Some m)); (d, NAttach (Some 0))]) ds.

Lemma all_join_runs : forall m, mob m <> NoMobility -> forall ds w, stations_only w ds ->
  exists w1 sg, run w (all_join m ds) = Some (Ok (w1, sg)).
Proof.
  intros m Hm. induction ds as [|d ds IH]; intros w S; [exists w, []; reflexivity|]. inversion S as [|? ? C S']; subst.
  assert (E : exists w1 sg, run w [(d, NNode (Some m)); (d, NAttach (Some 0))] = Some (Ok (w1, sg))).
  { cbn [nd_run nd_step]. unfold quiet, nd_attach, node_mob. cbn [nw_set nw_put nw_dev]. unfold nw_upd at 1 2. rewrite Nat.eqb_refl. unfold nd_set at 1 2. cbn [nd_class nd_reg ptr]. rewrite C.
    cbn [rbind reg_eqb]. unfold add_ground. destruct (mob m); [congruence| |]; cbn [abort_unless rbind]; eauto. }
  destruct E as (w1 & sg & E). destruct (IH w1) as (w2 & sg2 & E2).
  - unfold stations_only. rewrite Forall_forall. intros e He. rewrite (run_class h mac_type sat_type mob success _ _ _ _ e E). exact (proj1 (Forall_forall _ _) S' e He).
  - exists w2, (sg ++ sg2). cbn [all_join flat_map]. rewrite (run_app h mac_type sat_type mob success _ _ _ _ _ E). fold (all_join m ds). rewrite E2. reflexivity.
Qed.

Lemma all_join_joined : forall cls m ds, (forall d, In d ds -> cls d = GroundSta) -> joined cls GroundSta 0 (all_join m ds) = ds.
Proof.
  intros cls m. induction ds as [|d ds IH]; intros C; [reflexivity|]. unfold all_join in *. cbn [flat_map]. cbn [app]. unfold joined in *. cbn [flat_map fst snd]. rewrite (C d (or_introl eq_refl)).
  cbn [Nat.eqb app]. f_equal. apply IH. intros e He. apply C. right. exact He.
Qed.

Lemma p2p_one : forall k, nd_is_p2p k = true -> one_to_one k.
Proof.
  intros k P cls l w sg d r R C F. destruct F as [c h' tx delay loss suc ga con u rate dst proto power t os K Ch T|c delay loss suc sa u rate proto power K Ch|K].
  - unfold transmit2sat in T. cbn [gs_con] in T. destruct con as [con|]; [|injection T as <- <-; cbn; lia].
    destruct (get_satellite_addr h' con dst) as [[s|]| | |]; try discriminate T. cbn [rbind] in T. destruct (gs_succeeds suc d s); injection T as <- <-; cbn; lia.
  - rewrite (run_class h mac_type sat_type mob success _ _ _ _ d R) in K. change (cls d = SatDown) in K. rewrite C in K. rewrite K in P. discriminate P.
  - unfold nd_heard_by. rewrite K. destruct (nd_object (nw_dev w d) Chan) as [c|]; [|cbn; lia]. destruct (ss_src (nw_ss w c)) as [|a [|b [|]]]; cbn; lia.
Qed.

Lemma down_many : forall m, mob m <> NoMobility -> one_to_many SatDown.
Proof.
  intros m Hm n. set (cls := fun d => match d with O => SatDown | _ => GroundSta end).
  destruct (all_join_runs m Hm (seq 1 n) (nw_new cls)) as (w1 & sg & E).
  { unfold stations_only. apply Forall_forall. intros d Hd. apply in_seq in Hd. cbn. destruct d; [lia|reflexivity]. }
  assert (A : forall w, nd_class (nw_dev w 0) = SatDown -> exists w2 s2, run w [(0, NAttach (Some 0))] = Some (Ok (w2, s2))).
  { intros w C. cbn [nd_run nd_step]. unfold nd_attach. rewrite C. eauto. }
  destruct (A w1) as (w2 & s2 & E2); [rewrite (run_class h mac_type sat_type mob success _ _ _ _ 0 E); reflexivity|].
  assert (R : run (nw_new cls) (all_join m (seq 1 n) ++ [(0, NAttach (Some 0))]) = Some (Ok (w2, sg ++ s2))) by (rewrite (run_app h mac_type sat_type mob success _ _ _ _ _ E), E2; reflexivity).
  destruct (device_channels h mac_type sat_type mob success cls _ _ _ R 0) as (G & _).
  rewrite joined_app, all_join_joined in G by (intros d Hd; apply in_seq in Hd; destruct d; [lia|reflexivity]). cbn [joined flat_map snd fst cls app] in G. rewrite app_nil_r in G.
  assert (C0 : nd_object (nw_dev w2 0) Chan = Some 0).
  { cbn [nd_run nd_step] in E2. unfold nd_attach in E2. rewrite (run_class h mac_type sat_type mob success _ _ _ _ 0 E) in E2. cbn in E2. injection E2 as <- _. reflexivity. }
  exists cls, (all_join m (seq 1 n) ++ [(0, NAttach (Some 0))]), w2, (sg ++ s2), 0, (seq 1 n). split; [exact R|]. split; [reflexivity|]. split; [|split; [apply seq_NoDup|apply seq_length]].
  rewrite <- (to_each_reaches (fun _ _ => 0%Z) (fun p _ _ => p) (fun _ => sat_default) (seq 1 n) 0 0 0 0 0), <- G.
  apply (reaches_down w2 0 0). { rewrite (run_class h mac_type sat_type mob success _ _ _ _ 0 R). reflexivity. } exact C0.
Qed.

(** C128.  For every class of devices: it calls itself point to point just when its frames never reach more than one device,
    and a broadcast one just when they can reach any number, after whatever calls; a broadcast device gives a broadcast address;
    and it says it supports SendFrom just if that does anything. *)
Theorem device_kinds : (exists m, mob m <> NoMobility) -> forall k,
  (nd_is_p2p k = true <-> one_to_one k) /\ (nd_is_broadcast k = true <-> one_to_many k) /\
  (nd_is_broadcast k = true -> nd_broadcast mac_type k = mkGen mac_type (repeat 255%Z 6)) /\
  (nd_supports_send_from k = nd_send_from k /\
   (nd_supports_send_from k = false <-> forall w d, nd_class (nw_dev w d) = k -> nd_step h mac_type sat_type mob success w d NSendFrom = Some (Ok (w, [])))).
Proof.
  intros [m Hm] k.
  assert (X : one_to_one k -> one_to_many k -> False).
  { intros O M. destruct (M 2) as (cls & l & w & sg & d & r & R & C & F & _ & L). specialize (O cls l w sg d r R C F). lia. }
  assert (B : nd_is_broadcast k = negb (nd_is_p2p k)) by (destruct k; reflexivity).
  assert (M : nd_is_p2p k = false -> one_to_many k) by (destruct k; try discriminate; intros _; exact (down_many m Hm)).
  pose proof (p2p_one k) as O. split; [|split; [|split; [|split]]].
  - split; [exact O|]. intros H. destruct (nd_is_p2p k) eqn:E; [reflexivity|]. destruct (X H (M eq_refl)).
  - rewrite B. destruct (nd_is_p2p k) eqn:E; cbn [negb]; split; intros H; try discriminate H; try reflexivity; [destruct (X (O eq_refl) H)|exact (M eq_refl)].
  - destruct k; try discriminate; reflexivity.
  - destruct k; reflexivity.
  - split; [intros _ w d _; reflexivity|destruct k; reflexivity].
Qed.
End Kinds.
Print Assumptions device_kinds.

(** A satellite heard by two stations; a station whose frame reaches the one satellite it asks for; two ends of a link. *)
Example device_kinds_case :
  (exists m, some_mob m <> NoMobility) /\
  match some_run all_of_them with
  | Some (Ok (w, sg)) => frame_reaches w 2 [0; 1] /\ frame_reaches w 2 [1] /\ frame_reaches w 1 [7] /\ frame_reaches w 0 [] /\ frame_reaches w 4 [5] /\ frame_reaches w 5 [4] /\
      nd_step LittleEndian 5 7 some_mob None w 2 NSendFrom = Some (Ok (w, []))
  | _ => False end.
Proof.
  split; [exists 2; discriminate|].
  destruct (run_adds LittleEndian (con_new 1 3 4) [(2, 3, 7)]) as [[con x]| | |] eqn:RC; try discriminate RC.
  assert (T : transmit2sat LittleEndian (fun _ _ => 9%Z) (fun _ _ => 1%Z) (fun p _ _ => p) None (fun _ => 0%Z) (mkGS (Some con) [0; 1]) 5 5 1 (sat_make LittleEndian 1 2 3) 0 0
    = Ok (9%Z, [AtSat 1 7 5 5 (SrcGround 0) 0 0])) by (vm_compute in RC; injection RC as <- _; vm_compute; reflexivity).
  destruct (some_run all_of_them) as [[[w sg]| | |]|] eqn:R; try (vm_compute in R; discriminate R).
  assert (Q : map (fun d => nd_class (nw_dev w d)) [0; 1; 2; 4; 5] = [GroundSta; GroundSta; SatDown; SatSide; SatSide] /\ map (fun d => nd_object (nw_dev w d) Chan) [0; 1; 2; 4; 5] = repeat (Some 0) 5 /\
    gs_ground (nw_gs w 0) = [0; 1] /\ nd_heard_by w 4 = [5] /\ nd_heard_by w 5 = [4]).
  { pose proof (f_equal (fun x => match x with Some (Ok (w, _)) => (map (fun d => nd_class (nw_dev w d)) [0; 1; 2; 4; 5], map (fun d => nd_object (nw_dev w d) Chan) [0; 1; 2; 4; 5], gs_ground (nw_gs w 0), nd_heard_by w 4, nd_heard_by w 5) | _ => ([], [], [], [], []) end) R) as Z.
    cbv beta iota in Z. match type of Z with ?a = _ => let b := eval vm_compute in a in change a with b in Z end. injection Z as Z0 Z1 Z2 Z3 Z4 Z5 Z6 Z7 Z8 Z9 Za Zb Zc. cbn [map repeat]. repeat split; congruence. }
  destruct Q as (Q1 & Q2 & G & H4 & H5). cbn [map repeat] in Q1, Q2. injection Q1 as K0 K1 K2 K4 K5. injection Q2 as C0 C1 C2 C4 C5.
  split; [|split; [|split; [|split; [|split; [|split; [|reflexivity]]]]]].
  - pose proof (reaches_down w 2 0 (fun _ _ => 0%Z) (fun p _ _ => p) None (fun _ => sat_default) 0 0 0 0 K2 C2) as F. unfold transmit2ground in F. rewrite G in F. exact F.
  - pose proof (reaches_down w 2 0 (fun _ _ => 0%Z) (fun p _ _ => p) (Some (fun g _ => g =? 1)) (fun _ => sat_default) 0 0 0 0 K2 C2) as F. unfold transmit2ground in F. rewrite G in F. exact F.
  - rewrite <- G in T. exact (reaches_up w 1 0 _ _ _ _ _ _ (Some con) _ _ _ _ _ _ _ K1 C1 T).
  - exact (reaches_up w 0 0 LittleEndian (fun _ _ => 9%Z) (fun _ _ => 1%Z) (fun p _ _ => p) None (fun _ => 0%Z) None 5 5 sat_default 0 0 9 [Dropped 5] K0 C0 eq_refl).
  - rewrite <- H4. apply reaches_side. exact K4.
  - rewrite <- H5. apply reaches_side. exact K5.
Qed.
