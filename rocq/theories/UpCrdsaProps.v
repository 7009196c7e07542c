(** C127: when CRDSA passes packets up. *)
From Coq Require Import ZArith List Lia Bool Arith Permutation.
From Verif Require Import Base SatAddrModel ConstellationModel DeviceModel DeviceSpec DeviceProps RxModel RxSpec AlohaModel CrdsaModel CrdsaSpec CrdsaProofs ChannelModel SystemModel SystemSpec SystemProofs SystemMacs SystemProps
  CrdsaNetSpec DelaySpec DelayProps UpDelaySpec UpDelayProofs UpDelayProps UpCrdsaProofs.
Import ListNotations.
Open Scope Z_scope.

(** The bound of [crdsa_delay], now for when packets are passed up: by their own frame, or by another that is decoded and uncovers them.  If frames
    keep to their slots. *)
Definition crdsa_up_claim (k : Z) : Prop := forall w slot per base spread below two garbage n T D ops y ns, proper w -> guarded w slot per base spread ->
  (forall p i, 0 < i -> below p i = true) -> slot * Z.of_nat per <= two -> bounded w n T D -> NoDup (sent_uids ops) ->
  net_run w (crdsa_mac below two) (crdsa_init garbage) ops = Some (Ok (y, ns)) ->
  let frame := slot * Z.of_nat per in up_within (frame - 1 + Z.of_nat n * whole_slots frame (frame - slot + T) + (frame - slot) + T + D + k) y ns.

(** [slow_net] with receptions that are not without power. *)
Definition strong_net (delay : nat -> Z) (success : Z -> bool) (fits : list Z -> Z -> bool) (m : tx_mac) : network :=
  mkNet LittleEndian small_con (fun r u => 10) (fun _ => 1) (fun _ g s => delay g) (fun _ _ _ _ => 30) (fun t _ _ _ => success t) (fun g => 1000 + Z.of_nat g) (fun _ => fits) m
    (fun _ => sat_make LittleEndian 1 1 0) (fun _ => 30).

Lemma strong_guarded : guarded (strong_net (fun _ => 100) (fun _ => true) two_room last_slot) 40 4 (fun _ => 100) 0.
Proof.
  destruct last_slot_ok as (_ & _ & _ & Pm). split; cbn [strong_net w_mac w_delay w_tx w_rate w_loss last_slot]; try (intros; lia). split; [reflexivity|]. intros g u. split; [exact (Pm g u)|lia].
Qed.

Definition last_ops : list yop := slow_ops 12.
Lemma strong_last : match net_run (strong_net (fun _ => 100) (fun _ => true) two_room last_slot) (crdsa_mac no_capture 320) (crdsa_init 0) last_ops with
  | Some (Ok (_, ns)) => accepts ns 1 0 3 /\ In (NUp 710 7 3 1000 7) ns
  | _ => False end.
Proof. vm_compute. split; [exists 7, [EAccept 3]; split; [tauto|left; reflexivity]|tauto]. Qed.

Theorem crdsa_up_delay : forall k, crdsa_up_claim k <-> 0 <= k.
Proof.
  intros k. split.
  - intros C. pose proof strong_last as N. destruct (net_run (strong_net _ _ _ _) (crdsa_mac no_capture 320) (crdsa_init 0) last_ops) as [[[y ns]| | |]|] eqn:R; try contradiction.
    destruct last_slot_ok as (L1 & L2 & L3).
    assert (Pr : proper (strong_net (fun _ => 100) (fun _ => true) two_room last_slot)) by (split; [intros; cbn; lia|]; split; [intros; cbn; lia|]; split; [exact L1|exact L2]).
    assert (Bo : bounded (strong_net (fun _ => 100) (fun _ => true) two_room last_slot) 2 10 100) by (split; [intros g q u K; apply Nat.ltb_lt, K|split; intros; cbn; lia]).
    assert (Nc : forall p i, 0 < i -> no_capture p i = true) by (intros p i K; apply Z.ltb_lt, K).
    pose proof (C _ 40 4%nat (fun _ => 100) 0 no_capture 320 0 2%nat 10 100 last_ops y ns Pr strong_guarded Nc ltac:(lia) Bo (slow_nodup _ ltac:(cbn; tauto)) R) as O. clear C. cbv zeta in O.
    destruct N as (N1 & N2). destruct (O _ _ _ N1) as (_ & O2). specialize (O2 _ _ _ _ N2). change (whole_slots (40 * Z.of_nat 4) (40 * Z.of_nat 4 - 40 + 10)) with 160 in O2. lia.
  - intros Hk w slot per base spread below two garbage n T D ops y ns P G NC Mem (B1 & B2 & B3) N R frame.
    pose proof (gu_slot _ _ _ _ _ G) as G1. pose proof (gu_size _ _ _ _ _ G) as G2. pose proof (gu_mac _ _ _ _ _ G) as G3.
    assert (Fr : in_frames (w_mac w) (slot * Z.of_nat per) (slot * Z.of_nat per - slot)).
    { pose proof (per_pos w slot per base spread G) as Pp. destruct (w_mac w) as [|d|d slots repl] eqn:Em; [contradiction| |].
      - destruct G3 as (-> & ->). replace (slot * Z.of_nat 1) with slot by lia. rewrite Z.sub_diag. apply aloha_frames. lia.
      - apply crdsa_frames; auto. destruct G3 as (-> & G3). split; [reflexivity|]. intros g u. apply G3. }
    pose proof (passed_in_time w slot per base spread below two garbage P G NC Mem n T D Fr B2 B3 B1 ops y ns N R) as H. fold frame in H.
    eapply within_more; [|exact H]. lia.
Qed.
Print Assumptions crdsa_up_delay.

(** Packets 1 and 2 meet in the first slot, 1 and 3 in the second.  3 is alone in the third: it is passed up when its second copy has arrived, and 1 with it, though both
    copies of 1 are over since 30 or more; then 2. *)
Definition three_macs : tx_mac := TxCrdsa 40 (fun g _ => match g with 0%nat => [0; 1; 2; 3] | 1%nat => [0; 3; 1; 2] | _ => [1; 2; 0; 3] end) (fun _ _ => 2%nat).
Definition three_ops : list yop := [YSend 1 0 1 7; YSend 1 1 2 7; YSend 1 2 3 7] ++ repeat YNext 24.
Example crdsa_up_case :
  match net_run (strong_net (fun _ => 100) (fun _ => true) two_room three_macs) (crdsa_mac no_capture 320) (crdsa_init 0) three_ops with
  | Some (Ok (y, ns)) => transmissions ns = [(160, 1); (160, 2); (200, 1); (200, 3); (240, 3); (280, 2)] /\
      map (fun x => match x with NUp t _ u _ _ => (t, u) | _ => (0, 0) end) (ups_of ns) = [(350, 3); (350, 1); (350, 2)] /\ y_queue y = []
  | _ => False
  end.
Proof. vm_compute. repeat split; reflexivity. Qed.

(** Stations at distances that differ by more than the guard time: nothing holds the frames in their slots. *)
Definition crdsa_up_anyway : Prop := forall w slot per below two garbage n T D ops y ns, proper w -> in_slots_of (w_mac w) slot per -> 0 < slot ->
  (0 < per)%nat -> slot * Z.of_nat per < 2 ^ 63 -> (forall t p g s, 0 < w_loss w t p g s) ->
  (forall p i, 0 < i -> below p i = true) -> two = 2 * (slot * Z.of_nat per) -> bounded w n T D -> NoDup (sent_uids ops) ->
  net_run w (crdsa_mac below two) (crdsa_init garbage) ops = Some (Ok (y, ns)) ->
  let frame := slot * Z.of_nat per in up_within (frame - 1 + Z.of_nat n * whole_slots frame (frame - slot + T) + (frame - slot) + T + D) y ns.

(** The first copy of packet 1 is lost.  The second meets the first of 2, whose second meets the first of 3, whose second meets the first of 4. *)
Definition far_macs : tx_mac := TxCrdsa 40 (fun g _ => match g with 3%nat => [0; 2; 1; 3] | _ => [0; 3; 1; 2] end) (fun _ _ => 2%nat).
Definition far_delay (g : nat) : Z := match g with 0%nat => 1000 | 1%nat => 165 | 2%nat => 285 | _ => 404 end.
Definition one_room (q : list Z) (u : Z) : bool := (length q <? 1)%nat.
Definition far_net : network := strong_net far_delay (fun t => negb (t =? 0)) one_room far_macs.
Definition far_ops : list yop := [YSend 0 0 1 7; YNext; YNext; YNext; YNext; YSend 960 1 2 7; YSend 960 2 3 7; YSend 960 3 4 7] ++ repeat YNext 26.
Lemma far_ups : match net_run far_net (crdsa_mac no_capture 320) (crdsa_init 0) far_ops with
  | Some (Ok (y, ns)) => accepts ns 0 0 1 /\ In (NUp 1454 7 1 1000 7) ns
  | _ => False end.
Proof. vm_compute. split; [exists 7, [EAccept 1; EHand 1]; split; [tauto|left; reflexivity]|tauto]. Qed.

Theorem crdsa_up_anyway_refuted : ~ crdsa_up_anyway.
Proof.
  intros C. pose proof far_ups as N. destruct (net_run far_net (crdsa_mac no_capture 320) (crdsa_init 0) far_ops) as [[[y ns]| | |]|] eqn:R; try contradiction.
  assert (In4 : in_slots_of (w_mac far_net) 40 4).
  { split; [reflexivity|]. intros g u. change (set_slots_per_frame 4) with [0; 1; 2; 3].
    assert (K : forall l, NoDup l -> (forall x, In x l <-> In x [0; 1; 2; 3]) -> Permutation l [0; 1; 2; 3]).
    { intros l N1 N2. apply NoDup_Permutation; [exact N1|repeat constructor; cbn; intuition discriminate|exact N2]. }
    destruct g as [|[|[|[|g]]]]; (apply K; [repeat constructor; cbn; intuition discriminate|intros x; cbn; intuition]). }
  assert (Pr : proper far_net).
  { split; [intros; cbn; lia|]. split; [intros t g s; cbn; unfold far_delay; destruct g as [|[|[|g]]]; lia|]. split; [|intros; apply Nat.lt_0_succ].
    split; [lia|]. intros g u. destruct g as [|[|[|[|g]]]]; repeat constructor; lia. }
  assert (Bo : bounded far_net 1 10 1000).
  { split; [intros g q u K; apply Nat.ltb_lt, K|]. split; [intros; cbn; lia|]. intros t g s. cbn. unfold far_delay. destruct g as [|[|[|g]]]; lia. }
  assert (Nd : NoDup (sent_uids far_ops)) by (vm_compute; repeat constructor; cbn; intuition discriminate).
  assert (Po : forall t p g s, 0 < w_loss far_net t p g s) by (intros; cbn; lia).
  assert (Nc : forall p i, 0 < i -> no_capture p i = true) by (intros p i K; apply Z.ltb_lt, K).
  pose proof (C far_net 40 4%nat no_capture 320 0 1%nat 10 1000 far_ops y ns Pr In4 eq_refl (Nat.lt_0_succ 3) eq_refl Po Nc eq_refl Bo Nd R) as O. clear C. cbv zeta in O.
  destruct N as (N1 & N2). destruct (O _ _ _ N1) as (_ & O2). specialize (O2 _ _ _ _ N2). change (whole_slots (40 * Z.of_nat 4) (40 * Z.of_nat 4 - 40 + 10)) with 160 in O2. lia.
Qed.
Print Assumptions crdsa_up_anyway_refuted.
