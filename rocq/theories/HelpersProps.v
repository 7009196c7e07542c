(** Theorems about queue capacities, traffic helpers and installation. *)
From Coq Require Import ZArith QArith List Lia Bool Arith.
From Verif Require Import Base SatAddrModel ConstellationModel ConstellationSpec ConstellationProofs LaunchModel LaunchSpec LaunchProofs LaunchProps ChannelModel HelpersModel.
Import ListNotations.
Open Scope Z_scope.

(** * C58: queue capacity *)

Definition real_capacity (lim : queue_limit) : Z := match lim with InBytes n => n | InPackets n => n * 1500 end.
Definition limit_value (lim : queue_limit) : Z := match lim with InBytes n | InPackets n => n end.

Definition capacity_claim : Prop := forall lim mtu ops, 0 <= limit_value lim < 2 ^ 32 -> 0 <= mtu < 2 ^ 16 ->
  Forall (fun op => match op with QEnqueue s => 0 <= s <= mtu | QDequeue => True end) ops ->
  send_queue_capacity lim = real_capacity lim /\
  send_queue_length (queue_run lim ops) <= send_queue_capacity lim.

Lemma queue_bytes_app : forall a b, queue_bytes (a ++ b) = queue_bytes a + queue_bytes b.
Proof. unfold queue_bytes. induction a; intros; cbn [fold_right app]; [|rewrite IHa]; lia. Qed.

Lemma queue_run_ok : forall lim mtu ops, 0 <= limit_value lim ->
  Forall (fun op => match op with QEnqueue s => 0 <= s <= mtu | QDequeue => True end) ops ->
  let q := queue_run lim ops in
  Forall (fun s => 0 <= s <= mtu) q /\
  match lim with InBytes n => queue_bytes q <= n | InPackets n => Z.of_nat (length q) <= n end.
Proof.
  intros lim mtu ops Hl. unfold queue_run. induction ops as [|op ops IH] using rev_ind; intros H.
  - cbn. split; [constructor|destruct lim; exact Hl].
  - apply Forall_app in H. destruct H as [H1 H2]. apply Forall_inv in H2. specialize (IH H1). cbn zeta in IH.
    rewrite fold_left_app. cbn [fold_left]. set (q := fold_left (queue_step lim) ops []) in *. clearbody q. destruct IH as [F B].
    destruct op as [s|]; cbn [queue_step].
    + destruct lim as [n|n].
      * destruct (Z.ltb_spec n (Z.of_nat (length q) + 1)); [auto|]. split; [apply Forall_app; auto|]. rewrite app_length. cbn [length]. lia.
      * destruct (Z.ltb_spec n (queue_bytes q + s)); [auto|]. split; [apply Forall_app; auto|]. rewrite queue_bytes_app. cbn. lia.
    + destruct q as [|x q]; cbn [tl]; [auto|]. pose proof (Forall_inv F) as X. apply Forall_inv_tail in F. split; [exact F|].
      destruct lim; cbn [length] in B; unfold queue_bytes in *; cbn [fold_right] in B; lia.
Qed.

(** Right for limits in bytes; for limits in packets, while the product fits 32 bits and the MTU is at most 1500. *)
Theorem capacity_partial : forall lim mtu ops, 0 <= limit_value lim < 2 ^ 32 -> 0 <= mtu < 2 ^ 16 ->
  match lim with InBytes _ => True | InPackets n => n * 1500 < 2 ^ 32 /\ mtu <= 1500 end ->
  Forall (fun op => match op with QEnqueue s => 0 <= s <= mtu | QDequeue => True end) ops ->
  send_queue_capacity lim = real_capacity lim /\
  send_queue_length (queue_run lim ops) <= send_queue_capacity lim.
Proof.
  intros lim mtu ops Hl Hm Hc H. destruct (queue_run_ok lim mtu ops ltac:(lia) H) as [F B].
  set (q := queue_run lim ops) in *. clearbody q. unfold send_queue_length. destruct lim as [n|n]; cbn [send_queue_capacity real_capacity limit_value] in *.
  - unfold u32. rewrite Z.mod_small by lia. split; [reflexivity|].
    assert (Q : queue_bytes q <= Z.of_nat (length q) * 1500).
    { clear - F Hc. induction F as [|x l X _ IH]; unfold queue_bytes in *; cbn [fold_right length]; lia. }
    lia.
  - split; [reflexivity|exact B].
Qed.
Print Assumptions capacity_partial.

(** 2863312 packets overflow to a capacity of 704 bytes. *)
Theorem capacity_refuted : ~ capacity_claim.
Proof.
  intros C. destruct (C (InPackets 2863312) 1500 [] ltac:(cbn; lia) ltac:(lia) ltac:(constructor)) as [E _].
  vm_compute in E. discriminate.
Qed.
Print Assumptions capacity_refuted.

(** With a larger MTU one packet can exceed the capacity. *)
Theorem capacity_mtu_refuted : ~ (forall lim mtu ops, 0 <= limit_value lim <= 1000 -> 0 <= mtu < 2 ^ 16 ->
  Forall (fun op => match op with QEnqueue s => 0 <= s <= mtu | QDequeue => True end) ops ->
  send_queue_length (queue_run lim ops) <= send_queue_capacity lim).
Proof.
  intros C. specialize (C (InPackets 1) 9000 [QEnqueue 9000] ltac:(cbn; lia) ltac:(lia) ltac:(constructor; [lia|constructor])).
  vm_compute in C. apply C. reflexivity.
Qed.
Print Assumptions capacity_mtu_refuted.

Example capacity_case : send_queue_capacity (InPackets 100) = 150000 /\
  send_queue_length (queue_run (InPackets 2) [QEnqueue 1500; QEnqueue 700; QEnqueue 3; QDequeue]) = 700.
Proof. vm_compute. split; reflexivity. Qed.

(** * C59: LoRa *)

(** The payload symbols of the LoRa modem with explicit header and CRC: [n] is the least number of code words, of [4*(sf - 2*de)]
    bits each, that carry the remaining bits. *)
Definition standard_symbols (sf cr payload k : Z) : Prop := exists n,
  let word := 4 * (sf - 2 * (if sf <=? 10 then 0 else 1)) in
  k = 8 + cr * n /\ 0 <= n /\ 8 * payload - 4 * sf + 44 <= n * word /\ (forall m, 0 <= m -> 8 * payload - 4 * sf + 44 <= m * word -> n <= m).

Definition admissible_lora (sf cr bandwidth preamble header payload : Z) : Prop :=
  7 <= sf <= 12 /\ 5 <= cr <= 8 /\ 8 <= bandwidth <= 500 /\ 6 <= preamble <= 65532 /\ 0 <= header < 2 ^ 16 /\ 0 <= payload <= 255.

(** The size is the nearest number of bytes to [sf * (preamble + symbols + 4.25) / (2 cr)], less the header. *)
Definition lora_right (sf cr preamble header payload : Z) (l : lora) : Prop :=
  standard_symbols sf cr payload (lr_phy_size l) /\ 0 < lr_payload l < 2 ^ 32 /\
  Z.abs (8 * cr * (lr_payload l + header) - sf * (4 * (preamble + lr_phy_size l) + 17)) <= 4 * cr.

Definition lora_claim : Prop := forall sf cr bandwidth preamble header payload,
  admissible_lora sf cr bandwidth preamble header payload ->
  exists l, lora_new sf cr bandwidth preamble header payload = Ok l /\ lora_right sf cr preamble header payload l.

(** Spreading factor 12 and no payload: 44 - 48 wraps. *)
Theorem lora_wrap_refuted : ~ lora_claim.
Proof.
  intros C. destruct (C 12 5 125 8 0 0) as (l & E & (n & K & N0 & _ & Least) & _); [unfold admissible_lora; lia|].
  vm_compute in E. injection E as <-. cbn [lr_phy_size] in K. specialize (Least 0 ltac:(lia) ltac:(cbn; lia)). lia.
Qed.
Print Assumptions lora_wrap_refuted.

(** A protocol header larger than the frame: conversion of a negative number. *)
Theorem lora_header_refuted : ~ lora_claim.
Proof.
  intros C. destruct (C 10 5 125 8 100 51) as (l & E & _); [unfold admissible_lora; lia|]. vm_compute in E. discriminate.
Qed.
Print Assumptions lora_header_refuted.

(** 500 kHz is documented and passes the check, but 244 is used; 256 to 263 are refused. *)
Theorem lora_bandwidth_refuted : ~ (forall sf cr bandwidth, 7 <= sf <= 12 -> 5 <= cr <= 8 -> 8 <= bandwidth <= 500 ->
  lora_link_rate sf cr bandwidth = sf * bandwidth * 4000 / (2 ^ sf * cr)) /\
  lora_new 7 5 260 8 20 51 = Assert.
Proof. split; [intros C; specialize (C 7 5 500 ltac:(lia) ltac:(lia) ltac:(lia)); vm_compute in C; discriminate|reflexivity]. Qed.
Print Assumptions lora_bandwidth_refuted.

Lemma round_div_near : forall a b, 0 < b -> Z.abs (b * round_div a b - a) * 2 <= b.
Proof.
  intros a b Hb. unfold round_div. pose proof (Z.div_mod (2 * a + b) (2 * b) ltac:(lia)) as D.
  pose proof (Z.mod_pos_bound (2 * a + b) (2 * b) ltac:(lia)) as M. set (q := (2 * a + b) / (2 * b)) in *. set (r := (2 * a + b) mod (2 * b)) in *. lia.
Qed.

Lemma ceil_div_spec : forall a b, 0 < b -> a <= ceil_div a b * b /\ ceil_div a b * b < a + b.
Proof.
  intros a b Hb. unfold ceil_div. pose proof (Z.div_mod (- a) b ltac:(lia)) as D. pose proof (Z.mod_pos_bound (- a) b Hb) as M.
  set (q := - a / b) in *. set (r := - a mod b) in *. split; nia.
Qed.

(** Right for bandwidths that fit eight bits, whenever the payload is not empty or the spreading factor is below 12, and
    the header is smaller than the frame. *)
Theorem lora_partial : forall sf cr bandwidth preamble header payload,
  admissible_lora sf cr bandwidth preamble header payload -> bandwidth < 256 -> (0 < payload \/ sf < 12) ->
  (header + 1) * (8 * cr) <= sf * (4 * (preamble + 8) + 17) ->
  (exists l, lora_new sf cr bandwidth preamble header payload = Ok l /\ lora_right sf cr preamble header payload l) /\
  lora_link_rate sf cr bandwidth = sf * bandwidth * 4000 / (2 ^ sf * cr).
Proof.
  intros sf cr bw pre hd pl (Hs & Hc & Hb & Hp & Hh & Hl) Hb2 Hpl Hd.
  assert (U8 : forall x, 0 <= x < 256 -> u8 x = x) by (intros; unfold u8; apply Z.mod_small; lia).
  assert (U16 : forall x, 0 <= x < 65536 -> u16 x = x) by (intros; unfold u16; apply Z.mod_small; lia).
  assert (U32 : forall x, 0 <= x < 2 ^ 32 -> u32 x = x) by (intros; unfold u32; apply Z.mod_small; lia).
  split; [|unfold lora_link_rate; rewrite !U8 by lia; reflexivity].
  unfold lora_new. rewrite !U8, !U16, !U32 by lia.
  rewrite (proj2 (Z.leb_le 7 sf)), (proj2 (Z.leb_le sf 12)), (proj2 (Z.leb_le 5 cr)), (proj2 (Z.leb_le cr 8)), (proj2 (Z.leb_le 8 bw)),
    (proj2 (Z.leb_le bw 500)), (proj2 (Z.leb_le 6 pre)), (proj2 (Z.leb_le pre 65532)) by lia.
  cbn [andb assert_ rbind]. unfold lora_phy_size.
  assert (Wd : exists w, 4 * (sf - 2 * (if sf <=? 10 then 0 else 1)) = w /\ 28 <= w <= 40).
  { eexists. split; [reflexivity|]. destruct (Z.leb_spec sf 10); lia. }
  destruct Wd as (w & Ew & Hw). cbv zeta. rewrite Ew, (U32 (44 + 8 * pl - 4 * sf)) by lia.
  destruct (ceil_div_spec (44 + 8 * pl - 4 * sf) w ltac:(lia)) as [C1 C2].
  set (n := ceil_div (44 + 8 * pl - 4 * sf) w) in *. assert (Nb : 0 <= n <= 100) by (clear - C1 C2 Hw Hs Hl Hpl; clearbody n; nia).
  assert (Pb : 0 <= 8 + cr * n < 2 ^ 32) by (clear - Nb Hc; clearbody n; nia). rewrite (U32 (8 + cr * n)) by exact Pb.
  set (phy := 8 + cr * n) in *. set (num := sf * (4 * (pre + phy) + 17)).
  pose proof (round_div_near num (8 * cr) ltac:(lia)) as Rn. set (N := round_div num (8 * cr)) in *.
  assert (P8 : 8 <= phy <= 900) by (clear - Nb Hc; unfold phy; nia).
  assert (Nm : sf * (4 * (pre + 8) + 17) <= num <= 12 * (4 * (65532 + 900) + 17)).
  { unfold num. clear - P8 Hs Hp. clearbody phy. split; [apply Z.mul_le_mono_nonneg_l|apply Z.mul_le_mono_nonneg]; lia. }
  assert (Nlo : hd + 1 <= N).
  { assert (L : (hd + 1) * (8 * cr) <= num) by lia. clear - L Rn Hc. clearbody num N.
    destruct (Z.le_gt_cases (hd + 1) N) as [|G]; [assumption|]. exfalso.
    pose proof (Z.mul_le_mono_nonneg_l N hd (8 * cr) ltac:(lia) ltac:(lia)). lia. }
  assert (Nhi : N <= 2 ^ 20).
  { clear - Nm Rn Hc. clearbody num N. destruct (Z.le_gt_cases N (2 ^ 20)) as [|G]; [assumption|]. exfalso.
    pose proof (Z.mul_le_mono_nonneg_l (2 ^ 20) N (8 * cr) ltac:(lia) ltac:(lia)). lia. }
  destruct (Z.ltb_spec (N - hd) 0); [lia|]. destruct (Z.leb_spec (2 ^ 32) (N - hd)); [lia|]. cbn [orb].
  eexists. split; [reflexivity|]. unfold lora_right. cbn [lr_phy_size lr_payload]. split; [|split; [lia|]].
  - exists n. rewrite Ew. cbv zeta. split; [reflexivity|]. split; [lia|]. split; [lia|]. intros m M0 M1. clear - C2 M1 Hw. clearbody n. nia.
  - replace (N - hd + hd) with N by ring. fold num. lia.
Qed.
Print Assumptions lora_partial.

Example lora_case : lora_new 10 5 125 8 20 51 = Ok (mkLora 63 55) /\ lora_link_rate 10 5 125 = 976.
Proof. vm_compute. split; reflexivity. Qed.

(** * C60: Poisson traffic *)

Definition poisson_claim : Prop := forall rate header packet, 0 < rate < 2 ^ 64 -> 0 <= header < 2 ^ 32 -> 0 < packet < 2 ^ 32 ->
  (0 <= poisson_t_off rate header packet)%Q /\
  (poisson_t_on packet + poisson_t_off rate header packet == inject_Z (8 * (packet + header)) / inject_Z rate)%Q.

Theorem poisson_refuted : ~ poisson_claim.
Proof.
  intros C. destruct (C 1000 1 (2 ^ 32 - 1) ltac:(lia) ltac:(lia) ltac:(lia)) as [H _]. vm_compute in H. apply H. reflexivity.
Qed.
Print Assumptions poisson_refuted.

(** Right whenever packet and header together fit 32 bits. *)
Theorem poisson_partial : forall rate header packet, 0 < rate < 2 ^ 64 -> 0 <= header -> 0 < packet -> packet + header < 2 ^ 32 ->
  (0 <= poisson_t_off rate header packet)%Q /\
  (poisson_t_on packet + poisson_t_off rate header packet == inject_Z (8 * (packet + header)) / inject_Z rate)%Q.
Proof.
  intros rate header packet Hr Hh Hp Hs. unfold poisson_t_off, poisson_t_on, u32. rewrite Z.mod_small by lia.
  assert (R0 : ~ inject_Z rate == 0%Q) by (intros X; unfold Qeq in X; cbn in X; lia).
  split; [|ring]. assert (L : (inject_Z (packet * 8) / inject_Z (2 ^ 64 - 1) <= inject_Z (8 * (packet + header)) / inject_Z rate)%Q).
  { destruct rate as [|r|r]; try lia. unfold Qdiv, Qle, Qmult, Qinv, inject_Z. cbn [Qnum Qden]. rewrite !Z.mul_1_r, !Pos.mul_1_l. change (2 ^ 64 - 1) with 18446744073709551615 in *. cbn [Qnum Qden]. nia. }
  setoid_replace 0%Q with (inject_Z (packet * 8) / inject_Z (2 ^ 64 - 1) - inject_Z (packet * 8) / inject_Z (2 ^ 64 - 1))%Q by ring.
  unfold Qminus. apply Qplus_le_compat; [exact L|apply Qle_refl].
Qed.
Print Assumptions poisson_partial.

Example poisson_case : (poisson_t_on 1000 + poisson_t_off 8000 24 1000 == 1024 # 1000)%Q.
Proof. vm_compute. reflexivity. Qed.

(** * C61: installing devices *)
Open Scope nat_scope.

(** How many of the first [k] nodes satisfy [f], and the positions of those that do. *)
Definition count_before (f : nat -> bool) (ns : list nat) (k : nat) : nat := length (filter f (firstn k ns)).
Fixpoint positions (f : nat -> bool) (from : nat) (ns : list nat) : list nat :=
  match ns with [] => [] | n :: l => if f n then from :: positions f (from + 1) l else positions f (from + 1) l end.

Lemma positions_app : forall f a b from, positions f from (a ++ b) = positions f from a ++ positions f (from + length a) b.
Proof.
  induction a as [|x a IH]; intros b from; cbn [app positions length]; [rewrite Nat.add_0_r; reflexivity|].
  rewrite IH. replace (from + 1 + length a) with (from + S (length a)) by lia. destruct (f x); reflexivity.
Qed.

Lemma positions_length : forall f ns from, length (positions f from ns) = length (filter f ns).
Proof. induction ns; intros; cbn; [reflexivity|]. destruct (f a); cbn; rewrite IHns; reflexivity. Qed.

Lemma positions_nth : forall f ns from k n, nth_error ns k = Some n -> f n = true ->
  nth_error (positions f from ns) (count_before f ns k) = Some (from + k).
Proof.
  unfold count_before. induction ns as [|x ns IH]; intros from k n H F; [destruct k; discriminate|].
  destruct k as [|k]; cbn [nth_error firstn filter positions] in *.
  - injection H as ->. rewrite F. cbn. f_equal. lia.
  - specialize (IH (from + 1) k n H F). replace (from + S k) with (from + 1 + k) by lia. destruct (f x); exact IH.
Qed.

Lemma count_before_le : forall f ns k, count_before f ns k <= length (filter f ns).
Proof. intros. unfold count_before. rewrite <- (firstn_skipn k ns) at 2. rewrite filter_app, app_length. lia. Qed.

Lemma count_before_app : forall f ns n k, k <= length ns -> count_before f (ns ++ [n]) k = count_before f ns k.
Proof. intros. unfold count_before. rewrite firstn_app. replace (k - length ns) with 0 by lia. cbn. rewrite app_nil_r. reflexivity. Qed.

Lemma linv_satellite : forall ho id P S F alt inc ds s k, 0 < P -> 0 < S -> length ds <= P * S -> linv ho id P S F alt inc ds s ->
  k < length ds -> get_satellite (h_con s) (k / S) (k mod S) = Ok (nth_error ds k).
Proof.
  intros ho id P S F alt inc ds s k HP HS L ([l R] & _) Hk.
  destruct (run_adds_wf _ _ _ _ _ (new_wf id P S) R) as (W & _ & CP & CS & _). cbn in CP, CS.
  destruct (flat_slot P S k ltac:(lia)) as [Kp Ks].
  unfold get_satellite. rewrite CP, CS.
  rewrite (proj2 (Nat.leb_le (k / S) P)) by lia. rewrite (proj2 (Nat.leb_le (k mod S) S)) by lia.
  cbn [assert_ rbind]. rewrite (run_new_at _ _ _ _ _ _ _ R _ _ Kp Ks). f_equal.
  destruct (nth_error ds k) as [d|] eqn:D; [|apply nth_error_None in D; lia].
  apply added_at_In; [exact (proj1 (proj1 (run_adds_admissible _ _ _ _ _ (new_wf id P S) R)))|].
  unfold launch_adds. apply in_map_iff. exists (k, d). split; [reflexivity|].
  apply nth_error_In with (n := k). clear - D.
  assert (G : forall (l : list nat) s n, nth_error l n = Some d -> nth_error (combine (seq s (length l)) l) n = Some (s + n, d)).
  { induction l as [|x l IH]; intros s [|n] H; cbn in *; try discriminate.
    - injection H as ->. rewrite Nat.add_0_r. reflexivity.
    - rewrite (IH (Datatypes.S s) n H). do 2 f_equal. lia. }
  apply (G ds 0 k D).
Qed.

(** What the [k]-th node of the list gets. *)
Definition device_for (ho : host) (id first : Z) (S : nat) (mobile : nat -> bool) (ns : list nat) (k n : nat) : device_made :=
  if mobile n then MadeGround n (first + Z.of_nat (count_before mobile ns k)) k
  else let j := count_before (fun m => negb (mobile m)) ns k in MadeSat n (sat_make ho id (Z.of_nat (j / S)) (Z.of_nat (j mod S))) k.

Lemma install_nodes_snoc : forall A (O : angles A) debug ho ns n s,
  install_nodes O debug ho s (ns ++ [n]) = (do s1 <- install_nodes O debug ho s ns ; install_priv O debug ho s1 n).
Proof.
  induction ns as [|x ns IH]; intros n s; cbn [app install_nodes].
  - cbn [rbind]. destruct (install_priv O debug ho s n); reflexivity.
  - destruct (install_priv O debug ho s x); cbn [rbind]; auto.
Qed.

(** The [k]-th device belongs to the [k]-th node and has the [k]-th MAC instance.  Nodes without a position are launched in
    order, into consecutive slots, and their device reports the address of the slot that holds it.  The others become ground
    stations with consecutive addresses and are attached to the channel in order; the channel knows the constellation. *)
Theorem install_classifies : forall debug ho id P S F alt inc nodes first ns,
  let mobile n := nd_mobile (nodes n) in
  let fixed n := negb (mobile n) in
  0 < P -> 0 < S -> NoDup ns -> (forall n, In n ns -> nd_tracker (nodes n) = false) -> length (filter fixed ns) <= P * S ->
  exists s, install rational debug ho (helper_new rational id alt inc P S F) nodes first ns = Ok s /\
    length (in_devices s) = length ns /\
    (forall k n, nth_error ns k = Some n -> nth_error (in_devices s) k = Some (device_for ho id first S mobile ns k n)) /\
    (forall k n, nth_error ns k = Some n -> mobile n = false ->
       let j := count_before fixed ns k in get_satellite (h_con (in_helper s)) (j / S) (j mod S) = Ok (Some k)) /\
    gs_ground (in_channel s) = positions mobile 0 ns /\
    gs_con (in_channel s) = Some (h_con (in_helper s)) /\
    (forall n, In n ns -> in_nodes s n = mkNode true (mobile n)).
Proof.
  intros debug ho id P S F alt inc nodes first ns mobile fixed HP HS.
  assert (Main : NoDup ns -> (forall n, In n ns -> nd_tracker (nodes n) = false) -> length (filter fixed ns) <= P * S ->
    exists s, install_nodes rational debug ho (mkInstall (helper_new rational id alt inc P S F) gs_new nodes [] 0 first) ns = Ok s /\
    linv ho id P S F alt inc (positions fixed 0 ns) (in_helper s) /\
    length (in_devices s) = length ns /\
    (forall k n, nth_error ns k = Some n -> nth_error (in_devices s) k = Some (device_for ho id first S mobile ns k n)) /\
    in_channel s = mkGS None (positions mobile 0 ns) /\
    in_macs s = length ns /\ in_next s = (first + Z.of_nat (length (filter mobile ns)))%Z /\
    (forall n, In n ns -> in_nodes s n = mkNode true (mobile n)) /\ (forall n, ~ In n ns -> in_nodes s n = nodes n)).
  { induction ns as [|n ns IH] using rev_ind; intros ND NT L.
    - eexists. split; [reflexivity|]. cbn [in_helper in_devices in_channel in_macs in_next in_nodes length positions filter].
      split; [apply linv_new; auto|]. split; [reflexivity|]. split; [intros [|k] n H; discriminate|].
      repeat (split; [first [reflexivity|lia|intros ? []]|]). reflexivity.
    - apply NoDup_remove in ND. rewrite app_nil_r in ND. destruct ND as [ND Nn].
      rewrite filter_app, app_length in L.
      destruct IH as (s & E & I & Ld & Hd & Ec & Em & En & Hin & Hout).
      { exact ND. } { intros m M. apply NT. apply in_or_app. auto. } { lia. }
      rewrite install_nodes_snoc, E. cbn [rbind]. unfold install_priv.
      rewrite (Hout n Nn), Ld, Em, En, Ec. fold (mobile n). rewrite (NT n) by (apply in_or_app; right; left; reflexivity).
      assert (Last : forall (d : device_made), (forall k m, nth_error (ns ++ [n]) k = Some m ->
         (k < length ns /\ nth_error ns k = Some m) \/ (k = length ns /\ m = n))).
      { intros _ k m Hk. destruct (Nat.lt_ge_cases k (length ns)) as [K|K].
        - rewrite nth_error_app1 in Hk by exact K. auto.
        - rewrite nth_error_app2 in Hk by exact K. destruct (k - length ns) as [|x] eqn:Ek; [|destruct x; discriminate].
          cbn in Hk. injection Hk as <-. right. split; [lia|reflexivity]. }
      assert (Same : forall k m, k < length ns -> device_for ho id first S mobile (ns ++ [n]) k m = device_for ho id first S mobile ns k m).
      { intros k m K. unfold device_for. rewrite !count_before_app by lia. reflexivity. }
      assert (All : forall f, count_before f (ns ++ [n]) (length ns) = length (filter f ns)).
      { intros f. rewrite count_before_app by lia. unfold count_before. rewrite firstn_all. reflexivity. }
      assert (Nodes : forall st, st = mkNode true (mobile n) -> (forall m, In m (ns ++ [n]) -> set_node (in_nodes s) n st m = mkNode true (mobile m)) /\
        (forall m, ~ In m (ns ++ [n]) -> set_node (in_nodes s) n st m = nodes m)).
      { intros st ->. split; intros m M; unfold set_node; destruct (Nat.eqb_spec m n) as [->|Ne]; auto.
        - apply in_app_or in M. destruct M as [M|[<-|[]]]; [auto|congruence].
        - exfalso. apply M. apply in_or_app. right. left. reflexivity.
        - apply Hout. intros X. apply M. apply in_or_app. auto. }
      assert (Lf : forall f, length (filter f (ns ++ [n])) = length (filter f ns) + (if f n then 1 else 0)).
      { intros f. rewrite filter_app, app_length. cbn. destruct (f n); reflexivity. }
      destruct (mobile n) eqn:M; cbn [negb].
      + cbn [abort_unless rbind add_ground gs_con gs_ground].
        eexists. split; [reflexivity|]. cbn [in_helper in_devices in_channel in_macs in_next in_nodes].
        rewrite !positions_app. cbn [positions]. unfold fixed at 2. rewrite M. cbn [negb]. rewrite app_nil_r. split; [exact I|].
        split; [rewrite !app_length, Ld; reflexivity|]. split.
        { intros k m Hk. destruct (Last (MadeGround 0 0 0) k m Hk) as [[K Hm]|[-> ->]].
          - rewrite nth_error_app1 by lia. rewrite Same by exact K. auto.
          - rewrite nth_error_app2 by lia. rewrite Ld, Nat.sub_diag. cbn. unfold device_for. rewrite M, All. reflexivity. }
        split; [reflexivity|]. split; [rewrite app_length; reflexivity|]. split; [rewrite (Lf mobile), M; lia|]. apply Nodes. reflexivity.
      + pose proof (Lf fixed) as Lx. unfold fixed at 3 in Lx. rewrite M in Lx. cbn [negb] in Lx. rewrite filter_app, app_length in Lx.
        destruct (linv_step debug ho id P S F alt inc (positions fixed 0 ns) (in_helper s) (length ns) HP HS I) as (h' & a & o & El & Ea & _ & _ & _ & _ & I').
        { rewrite positions_length. lia. }
        rewrite El. cbn [rbind]. rewrite positions_length in Ea.
        eexists. split; [reflexivity|]. cbn [in_helper in_devices in_channel in_macs in_next in_nodes].
        rewrite !positions_app. cbn [positions]. unfold fixed at 2. rewrite M. cbn [negb]. rewrite app_nil_r. split; [exact I'|].
        split; [rewrite !app_length, Ld; reflexivity|]. split.
        { intros k m Hk. destruct (Last (MadeGround 0 0 0) k m Hk) as [[K Hm]|[-> ->]].
          - rewrite nth_error_app1 by lia. rewrite Same by exact K. auto.
          - rewrite nth_error_app2 by lia. rewrite Ld, Nat.sub_diag. cbn [nth_error]. unfold device_for. rewrite M, All, Ea. reflexivity. }
        split; [reflexivity|]. split; [rewrite app_length; reflexivity|]. split; [rewrite (Lf mobile), M; lia|]. apply Nodes. reflexivity. }
  intros ND NT L. destruct (Main ND NT L) as (s & E & I & Ld & Hd & Ec & Em & En & Hin & _).
  unfold install. rewrite E. cbn [rbind]. eexists. split; [reflexivity|].
  cbn [in_helper in_devices in_channel in_macs in_next in_nodes set_constellation gs_ground gs_con]. rewrite Ec. cbn [gs_ground].
  split; [exact Ld|]. split; [exact Hd|]. split; [|auto].
  intros k n Hk M. set (j := count_before fixed ns k). assert (Nth : nth_error (positions fixed 0 ns) j = Some k).
  { unfold j. apply (positions_nth fixed ns 0 k n Hk). unfold fixed. rewrite M. reflexivity. }
  rewrite (linv_satellite ho id P S F alt inc (positions fixed 0 ns) (in_helper s) j HP HS).
  - rewrite Nth. reflexivity.
  - rewrite positions_length. exact L.
  - exact I.
  - apply nth_error_Some. rewrite Nth. discriminate.
Qed.
Print Assumptions install_classifies.

Definition case_nodes (n : nat) : node_state := mkNode (n =? 1) false.
Example install_case :
  match install rational true LittleEndian (helper_new rational 1 550%Q 53%Q 2 2 1) case_nodes 7 [0; 1; 2; 3] with
  | Ok s => in_devices s = [MadeSat 0 (sat_make LittleEndian 1 0 0) 0; MadeGround 1 7 1; MadeSat 2 (sat_make LittleEndian 1 0 1) 2;
                            MadeSat 3 (sat_make LittleEndian 1 1 0) 3] /\ gs_ground (in_channel s) = [1]
  | _ => False
  end.
Proof. vm_compute. split; reflexivity. Qed.

(** A node listed twice is a satellite the first time and a ground station the second; one listed three times aborts. *)
Example install_twice :
  match install rational true LittleEndian (helper_new rational 1 550%Q 53%Q 2 2 1) case_nodes 7 [0; 0] with
  | Ok s => in_devices s = [MadeSat 0 (sat_make LittleEndian 1 0 0) 0; MadeGround 0 7 1]
  | _ => False
  end /\ install rational true LittleEndian (helper_new rational 1 550%Q 53%Q 2 2 1) case_nodes 7 [0; 0; 0] = Abort.
Proof. vm_compute. split; reflexivity. Qed.
