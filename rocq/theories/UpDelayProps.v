(** How long frames to satellites are under way. C125. *)
From Coq Require Import ZArith List Lia Bool Arith Permutation.
From Verif Require Import Base SatAddrModel ConstellationModel DeviceModel DeviceSpec DeviceProps RxModel RxSpec AlohaModel CrdsaModel CrdsaSpec CrdsaProofs ChannelModel SystemModel SystemSpec SystemProofs SystemMacs SystemProps
  DelaySpec DelayProps UpDelaySpec UpDelayProofs.
Import ListNotations.
Open Scope Z_scope.

(** Room for [n] packets in every queue, transmissions take up to [T], propagation up to [D].  Without a MAC: [n] + [k] transmissions and the
    propagation.  With slots: each packet ahead takes whole slots, and the first may have to wait for one. *)
Definition bounded (w : network) (n : nat) (T D : Z) : Prop :=
  (forall g, holds_up_to n (w_fits w g)) /\ (forall r u, w_tx w r u <= T) /\ (forall t g s, w_delay w t g s <= D).
Definition up_delay_claim (k : Z) : Prop := forall w n T D ops y ns, proper w -> w_mac w = TxNone -> bounded w n T D -> NoDup (sent_uids ops) ->
  net_run w none_mac tt ops = Some (Ok (y, ns)) -> up_within ((Z.of_nat n + k) * T + D) y ns.
Definition slot_delay_claim (k : Z) : Prop := forall w slot below garbage n T D ops y ns, proper w -> w_mac w = TxAloha slot -> 0 < slot < 2 ^ 63 -> bounded w n T D -> NoDup (sent_uids ops) ->
  net_run w (aloha_mac below) (aloha_init garbage) ops = Some (Ok (y, ns)) -> up_within (slot - 1 + Z.of_nat n * whole_slots slot T + T + D + k) y ns.

(** CRDSA: frames of [per] slots.  Each packet ahead takes whole frames up to the end of its last copy, the first may have to wait for a frame, and the
    last copy may be in the last slot. *)
Definition in_slots_of (m : tx_mac) (slot : Z) (per : nat) : Prop :=
  match m with TxCrdsa d slots repl => d = slot /\ forall g u, Permutation (slots g u) (set_slots_per_frame per) | _ => False end.
Definition crdsa_delay_claim (k : Z) : Prop := forall w slot per below two garbage n T D ops y ns, proper w -> in_slots_of (w_mac w) slot per -> 0 < slot ->
  (0 < per)%nat -> slot * Z.of_nat per < 2 ^ 63 -> bounded w n T D -> NoDup (sent_uids ops) ->
  net_run w (crdsa_mac below two) (crdsa_init garbage) ops = Some (Ok (y, ns)) ->
  let frame := slot * Z.of_nat per in up_over (frame - 1 + Z.of_nat n * whole_slots frame (frame - slot + T) + (frame - slot) + T + D + k) y ns.

(** Two packets to a queue: the third waits for two transmissions. *)
Definition slow_net (m : tx_mac) : network :=
  mkNet LittleEndian small_con (fun r u => 10) (fun _ => 1) (fun _ g s => 100) (fun _ p _ _ => p) (fun _ _ _ _ => true) (fun g => 1000 + Z.of_nat g) (fun _ => two_room) m
    (fun _ => sat_make LittleEndian 1 1 0) (fun _ => 30).
Definition slow_ops (e : nat) : list yop := [YSend 1 0 1 7; YSend 1 0 2 7; YSend 1 0 3 7; YSend 1 0 4 7] ++ repeat YNext e.

Lemma slow_proper : forall m, mac_wf m -> (forall g u, 1 <= copies m g u)%nat -> proper (slow_net m) /\ bounded (slow_net m) 2 10 100.
Proof.
  intros m Hm Hc. split; [split; [intros; cbn; lia|split; [intros; cbn; lia|split]]|].
  - exact Hm.
  - exact Hc.
  - split; [|split; intros; cbn; lia]. intros g q u K. apply Nat.ltb_lt, K.
Qed.
Lemma slow_nodup : forall e, In e [9; 12]%nat -> NoDup (sent_uids (slow_ops e)).
Proof. intros e [<-|[<-|[]]]; vm_compute; repeat constructor; cbn; intuition discriminate. Qed.

Lemma within_more : forall M a b (y : @sys M) ns, a <= b -> up_within a y ns -> up_within b y ns.
Proof. intros M a b y ns L O t g u H. destruct (O t g u H) as (O1 & O2). split; [intros K; specialize (O1 K); lia|]. intros tm s src proto K. specialize (O2 tm s src proto K). lia. Qed.

Definition third_up : Z := 131.
Lemma slow_none : match net_run (slow_net TxNone) none_mac tt (slow_ops 9) with
  | Some (Ok (_, ns)) => accepts ns 1 0 3 /\ In (NUp third_up 7 3 1000 7) ns
  | _ => False end.
Proof. vm_compute. split; [exists 7, [EAccept 3]; split; [tauto|left; reflexivity]|tauto]. Qed.

Theorem up_delay : forall k, up_delay_claim k <-> 1 <= k.
Proof.
  intros k. split.
  - intros C. pose proof slow_none as N. destruct (net_run (slow_net TxNone) none_mac tt (slow_ops 9)) as [[[y ns]| | |]|] eqn:R; try contradiction.
    destruct (slow_proper TxNone Logic.I (fun _ _ => le_n _)) as (Pr & Bo). pose proof (C _ _ _ _ _ _ _ Pr eq_refl Bo (slow_nodup _ ltac:(cbn; tauto)) R) as O. clear C.
    destruct N as (N1 & N2). destruct (O _ _ _ N1) as (_ & O2). specialize (O2 _ _ _ _ N2). unfold third_up in O2. lia.
  - intros Hk w n T D ops y ns (P1 & P2 & P3 & P4) Em (B1 & B2 & B3) N R. unfold net_run in R.
    assert (Fr : in_frames (w_mac w) 1 0) by (rewrite Em; split; reflexivity).
    pose proof (run_within _ _ _ _ _ _ _ _ _ _ none_mac _ _ _ P1 P2 P3 P4 1 0 ltac:(lia) ltac:(lia) Fr n T D B2 B3 B1 (always_single _ _ none_always) ops y ns N R) as H.
    rewrite whole_one in H. pose proof (P1 0 0). pose proof (B2 0 0). eapply within_more; [|exact H]. nia.
Qed.
Print Assumptions up_delay.

Lemma aloha_frames : forall slot, 0 < slot < 2 ^ 63 -> in_frames (TxAloha slot) slot 0.
Proof.
  intros slot H t g u l A. cbn [air_times aloha_send map fst] in A. injection A as <-. rewrite (whole_next slot t ltac:(lia)). repeat constructor; lia.
Qed.
Lemma crdsa_frames : forall m slot per, in_slots_of m slot per -> 0 < slot -> (0 < per)%nat -> slot * Z.of_nat per < 2 ^ 63 ->
  in_frames m (slot * Z.of_nat per) (slot * Z.of_nat per - slot).
Proof.
  intros [|d|d slots repl] slot per I S N B; try contradiction. destruct I as (-> & Pm). intros t g u l A. cbn [air_times] in A.
  assert (Ln : length (slots g u) = per). { rewrite (Permutation_length (Pm g u)). unfold set_slots_per_frame. rewrite map_length, seq_length. reflexivity. }
  unfold crdsa_send, selected_slots in A. rewrite Ln in A. destruct (Z.ltb_spec 0 (Z.of_nat per)); [|lia]. destruct (Z.ltb_spec 0 slot); [|lia]. cbn [andb] in A.
  destruct (per <? repl g u)%nat; cbn [rbind rmap] in A; [discriminate|]. injection A as <-. rewrite map_map. cbn [fst].
  apply Forall_forall. intros a Ha. apply in_map_iff in Ha. destruct Ha as (k & <- & Hk).
  assert (K : In k (slots g u)) by (rewrite <- (firstn_skipn (repl g u)); apply in_or_app; left; exact Hk).
  apply (Permutation_in _ (Pm g u)) in K. unfold set_slots_per_frame in K. apply in_map_iff in K. destruct K as (i & <- & Hi). apply in_seq in Hi.
  rewrite Z.add_assoc, (whole_next (slot * Z.of_nat per) t ltac:(nia)). nia.
Qed.

Definition third_slot_up : Z := 230.
Lemma slow_slots : match net_run (slow_net (TxAloha 40)) (aloha_mac no_capture) (aloha_init 0) (slow_ops 12) with
  | Some (Ok (_, ns)) => accepts ns 1 0 3 /\ In (NUp third_slot_up 7 3 1000 7) ns
  | _ => False end.
Proof. vm_compute. split; [exists 7, [EAccept 3]; split; [tauto|left; reflexivity]|tauto]. Qed.

Theorem slot_delay : forall k, slot_delay_claim k <-> 0 <= k.
Proof.
  intros k. split.
  - intros C. pose proof slow_slots as N. destruct (net_run (slow_net (TxAloha 40)) (aloha_mac no_capture) (aloha_init 0) (slow_ops 12)) as [[[y ns]| | |]|] eqn:R; try contradiction.
    destruct (slow_proper (TxAloha 40) Logic.I (fun _ _ => le_n _)) as (Pr & Bo). pose proof (C (slow_net (TxAloha 40)) 40 no_capture 0 2%nat 10 100 (slow_ops 12) y ns Pr eq_refl (conj eq_refl eq_refl) Bo (slow_nodup _ ltac:(cbn; tauto)) R) as O. clear C.
    destruct N as (N1 & N2). destruct (O _ _ _ N1) as (_ & O2). specialize (O2 _ _ _ _ N2). unfold third_slot_up in O2. change (whole_slots 40 10) with 40 in O2. lia.
  - intros Hk w slot below garbage n T D ops y ns (P1 & P2 & P3 & P4) Em Hs (B1 & B2 & B3) N R. unfold net_run in R.
    assert (Fr : in_frames (w_mac w) slot 0) by (rewrite Em; apply aloha_frames; lia).
    pose proof (run_within _ _ _ _ _ _ _ _ _ _ (aloha_mac below) _ _ _ P1 P2 P3 P4 slot 0 ltac:(lia) ltac:(lia) Fr n T D B2 B3 B1 (aloha_single below) ops y ns N R) as H.
    cbn [Z.add] in H. eapply within_more; [|exact H]. lia.
Qed.
Print Assumptions slot_delay.

(** The fourth packet is refused.  Slots of 40: transmissions of 10 at 40, 80 and 120. *)
Example up_delay_case :
  match net_run (slow_net TxNone) none_mac tt (slow_ops 9), net_run (slow_net (TxAloha 40)) (aloha_mac no_capture) (aloha_init 0) (slow_ops 12) with
  | Some (Ok (y, ns)), Some (Ok (z, ms)) =>
      map note_time (ups_of ns) = [111; 121; 131] /\ map note_time (ups_of ms) = [150; 190; 230] /\ transmissions ms = [(40, 1); (80, 2); (120, 3)] /\
      y_queue y = [] /\ y_queue z = [] /\ accepted (station_events 0 ns) = [1; 2; 3] /\ (2 + 1) * 10 + 100 = third_up - 1 /\ 39 + 2 * whole_slots 40 10 + 10 + 100 = third_slot_up - 1
  | _, _ => False
  end.
Proof. vm_compute. repeat split; reflexivity. Qed.

(** Frames of four slots of 40, one copy of each packet, in the last slot: transmissions of 10 at 280, 440 and 600. *)
Definition last_slot : tx_mac := TxCrdsa 40 (fun _ _ => [3; 0; 2; 1]) (fun _ _ => 1%nat).
Definition late_ops : list yop := slow_ops 11 ++ [YRetarget 710 0 (sat_make LittleEndian 1 1 0)].
Lemma slow_frames : match net_run (slow_net last_slot) (crdsa_mac no_capture 320) (crdsa_init 0) late_ops with
  | Some (Ok (y, ns)) => accepts ns 1 0 3 /\ up_under_way y 0 3 /\ y_now y = 710
  | _ => False end.
Proof.
  vm_compute. split; [exists 7, [EAccept 3]; split; [tauto|left; reflexivity]|]. split; [|reflexivity]. right. eexists. eexists. split; [left; reflexivity|reflexivity].
Qed.
Lemma last_slot_ok : mac_wf last_slot /\ (forall g u, 1 <= copies last_slot g u)%nat /\ in_slots_of last_slot 40 4.
Proof.
  split; [split; [lia|intros; repeat constructor; lia]|]. split; [intros; apply le_n|]. split; [reflexivity|]. intros g u. change (set_slots_per_frame 4) with [0; 1; 2; 3].
  apply NoDup_Permutation; [repeat constructor; cbn; intuition discriminate|repeat constructor; cbn; intuition discriminate|]. intros x. cbn. intuition.
Qed.

(** All copies of a packet are over in that time.  A copy that collided may be passed up later, when others are decoded. *)
Theorem crdsa_delay : forall k, crdsa_delay_claim k <-> 0 <= k.
Proof.
  intros k. split.
  - intros C. pose proof slow_frames as N. destruct (net_run (slow_net last_slot) (crdsa_mac no_capture 320) (crdsa_init 0) late_ops) as [[[y ns]| | |]|] eqn:R; try contradiction.
    destruct last_slot_ok as (L1 & L2 & L3). destruct (slow_proper last_slot L1 L2) as (Pr & Bo).
    assert (Nd : NoDup (sent_uids late_ops)) by (vm_compute; repeat constructor; cbn; intuition discriminate).
    pose proof (C (slow_net last_slot) 40 4%nat no_capture 320 0 2%nat 10 100 late_ops y ns Pr L3 eq_refl (Nat.lt_0_succ 3) eq_refl Bo Nd R) as O. clear C. cbv zeta in O.
    destruct N as (N1 & N2 & N3). specialize (O _ _ _ N1 N2). rewrite N3 in O. change (whole_slots (40 * Z.of_nat 4) (40 * Z.of_nat 4 - 40 + 10)) with 160 in O. lia.
  - intros Hk w slot per below two garbage n T D ops y ns (P1 & P2 & P3 & P4) Em Hs Hp Hb (B1 & B2 & B3) N R frame. unfold net_run in R.
    pose proof (crdsa_frames _ _ _ Em Hs Hp Hb) as Fr. fold frame in Fr.
    pose proof (run_over _ _ _ _ _ _ _ _ _ _ (crdsa_mac below two) _ _ _ P1 P2 P3 P4 frame (frame - slot) ltac:(nia) ltac:(nia) Fr n T D B2 B3 B1 ops y ns N R) as H.
    intros t g u Ac U. specialize (H t g u Ac U). lia.
Qed.
Print Assumptions crdsa_delay.

Example crdsa_delay_case :
  match net_run (slow_net last_slot) (crdsa_mac no_capture 320) (crdsa_init 0) (late_ops ++ [YNext]) with
  | Some (Ok (y, ns)) => transmissions ns = [(280, 1); (440, 2); (600, 3)] /\ map note_time (ups_of ns) = [390; 550; 710] /\ y_queue y = [] /\
      159 + 2 * whole_slots 160 (120 + 10) + 120 + 10 + 100 = 710 - 1
  | _ => False
  end.
Proof. vm_compute. repeat split; reflexivity. Qed.
