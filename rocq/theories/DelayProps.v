(** How long frames are under way. *)
From Coq Require Import ZArith List Lia Bool Arith Permutation Sorted.
From Verif Require Import Base SatAddrModel ConstellationModel DeviceModel DeviceSpec DeviceProofs ChannelModel LinkModel LinkSpec LinkProofs LinkDevices DownSpec DownProofs DownProps IslNetSpec IslNetProps
  DelaySpec DelayProofs.
Import ListNotations.
Open Scope Z_scope.

(** Room for [n] packets in every queue, transmissions take up to [T], propagation up to [D]: a frame is over after [n] + [k] transmissions
    and the propagation. *)
Definition down_delay_claim (k : Z) : Prop := forall d n T D ops y ns i, v_sane d ->
  (forall i, holds_up_to n (v_fits d i)) -> (forall r u, v_tx d r u <= T) -> (forall t g s, v_delay d t g s <= D) ->
  v_run d ops = Some (Ok (y, ns)) -> over_within ((Z.of_nat n + k) * T + D) i y ns.
Definition isl_delay_claim (k : Z) : Prop := forall w n T D ops y ns i, w_linked w ->
  (forall i, holds_up_to n (w_fits w i)) -> (forall r u, w_tx w r u <= T) -> (forall t i j, w_delay w t i j <= D) ->
  w_run w ops = Some (Ok (y, ns)) -> over_within ((Z.of_nat n + k) * T + D) i y ns.

Lemma over_longer : forall F a b i (y : @lstate F) ns, a <= b -> over_within a i y ns -> over_within b i y ns.
Proof. intros F a b i y ns L O Nd t u H. destruct (O Nd t u H) as (O1 & O2). split; [intros K; specialize (O1 K); lia|]. intros tm f K1 K2 K3. specialize (O2 tm f K1 K2 K3). lia. Qed.

Lemma s_room : forall fits dur n, holds_up_to n fits -> forall d o d' ev, s_step fits dur d o = Some (Ok (d', ev)) -> forall t u p, In (SAccept t u p) ev -> (List.length (s_queue d) < n)%nat.
Proof.
  intros fits dur n H d o d' ev S t u p K. destruct o as [t' v q|]; cbn [s_step] in S.
  - destruct (_ && _) in S; [|discriminate]. apply some_inj in S. unfold s_send in S. destruct (find_tag v (s_tags d)); [discriminate|]. destruct (fits (s_queue d) v) eqn:E; [exact (H _ _ E)|].
    injection S as <- <-. destruct K as [K|[]]. discriminate.
  - destruct (s_pending d); [discriminate|]. apply some_inj in S. unfold s_complete in S. destruct (s_queue d).
    + injection S as <- <-. destruct K.
    + unfold s_transmit_start in S. cbn in S. destruct (s_busy d); cbn in S; [|discriminate]. destruct (find_tag _ _); [|discriminate]. injection S as <- <-. destruct K as [K|[]]. discriminate.
Qed.
Lemma i_room : forall fits dur n, holds_up_to n fits -> forall d o d' ev, i_step fits dur d o = Some (Ok (d', ev)) -> forall t u p, In (SAccept t u p) ev -> (List.length (s_queue d) < n)%nat.
Proof.
  intros fits dur n H d o d' ev S t u p K. destruct o as [t' v q|]; cbn [i_step] in S.
  - destruct (_ && _) in S; [|discriminate]. apply some_inj in S. unfold i_send in S. destruct (fits (s_queue d) v) eqn:E; [exact (H _ _ E)|].
    injection S as <- <-. destruct K as [K|[]]. discriminate.
  - destruct (s_pending d); [discriminate|]. apply some_inj in S. unfold i_complete in S. destruct (s_queue d).
    + injection S as <- <-. destruct K.
    + unfold i_transmit_start in S. cbn in S. injection S as <- <-. destruct K as [K|[]]. discriminate.
Qed.

(** Two packets to a queue; the third waits for two transmissions, is sent and propagates. *)
Definition two_room (q : list Z) (_ : Z) : bool := (List.length q <? 2)%nat.
Definition slow_down : downlink := mkDownlink LittleEndian (fun _ _ => 10) (fun _ => 1) (fun _ _ _ => 7) (fun _ p _ _ => p) (fun _ _ _ _ => true) (fun _ => sat_make LittleEndian 1 0 0) [0%nat] (fun _ => 0)
  (fun _ => two_room) (fun _ => sat_make LittleEndian 1 0 0).
Definition slow_isl : islnet := mkIsl (fun _ _ => 10) (fun _ => 1) (fun _ _ _ => 7) (fun _ _ _ _ => true) (fun i => mkSS [i; other i] true) other (fun _ => two_room).
Definition three_packets {F : Type} : list (@lop F) := [LSend 5 0 1 9; LSend 5 0 2 9; LSend 5 0 3 9; LSend 5 0 4 9] ++ repeat LNext 9.


Definition last_up : Z := 42.
Theorem down_delay : forall k, down_delay_claim k <-> 1 <= k.
Proof.
  intros k. split.
  - intros C. destruct (v_run slow_down three_packets) as [[[y ns]| | |]|] eqn:R; try (vm_compute in R; discriminate R).
    pose proof (C slow_down 2%nat 10 7 three_packets y ns 0%nat) as H.
    assert (O : over_within ((Z.of_nat 2 + k) * 10 + 7) 0 y ns).
    { apply H; try exact R; try (intros; cbn; lia).
      - constructor; intros; cbn; try lia; exists 1, 0, 0; repeat split; lia.
      - intros i q u K. apply Nat.ltb_lt, K. }
    assert (N : NoDup (map snd (requests (dev_events 0 ns))) /\ In (5, 3) (requests (dev_events 0 ns)) /\ In (KUp last_up (mkFlight 0 0 3 9 32 10)) ns).
    { vm_compute in R. injection R as _ <-. split; [|split].
      - cbn. repeat constructor; cbn; intuition discriminate.
      - cbn. tauto.
      - cbn. tauto. }
    destruct N as (N1 & N2 & N3). destruct (O N1 5 3 N2) as (_ & O2). specialize (O2 _ _ N3 eq_refl eq_refl). unfold last_up in O2. lia.
  - intros Hk d n T D ops y ns i Sn Hf Ht Hd R. pose proof (vs_tx d Sn 0 0). pose proof (Ht 0 0). pose proof (vs_delay d Sn 0 0%nat 0%nat). pose proof (Hd 0 0%nat 0%nat).
    apply over_longer with (a := (Z.of_nat n + 1) * T + D); [nia|].
    eapply (link_over (down_step (v_tx d) (v_rate d) (v_fits d)) (fun i => v_tx d (v_rate d i)) (down_spread (v_tx d) (v_rate d) (v_delay d) (v_loss d) (v_success d) (v_addr d) (v_ground d) (v_power d))
      (down_hears (v_host d) (v_addr d)) (v_a0 d) (fun i => d_inv (v_tx d (v_rate d i)))).
    + intros. apply (vs_tx d Sn).
    + intros. apply d_init.
    + intros j e tr [Ti _ _ _]. exact Ti.
    + intros j e tr o e' ev Hi Hs. apply (s_moves _ (fun u => vs_tx d Sn _ u) (v_fits d j)); assumption.
    + intros. apply Ht.
    + lia.
    + intros t j u p hops after r lasts E K. rewrite (spread_eq d) in E. injection E as <-. apply in_map_iff in K. destruct K as (g & K & _). unfold hop_at in K. destruct (v_success d t u g j); [|discriminate].
      injection K as <- <- <-. repeat split; [apply (vs_delay d Sn)|apply Hd|apply (vs_tx d Sn)|apply Ht].
    + intros j e o e' ev Hs. exact (s_room _ _ n (Hf j) _ _ _ _ Hs).
    + exact (down_run_inv d Sn ops y ns R).
Qed.
Print Assumptions down_delay.

Theorem isl_delay : forall k, isl_delay_claim k <-> 1 <= k.
Proof.
  intros k. split.
  - intros C. destruct (w_run slow_isl three_packets) as [[[y ns]| | |]|] eqn:R; try (vm_compute in R; discriminate R).
    pose proof (C slow_isl 2%nat 10 7 three_packets y ns 0%nat) as H.
    assert (O : over_within ((Z.of_nat 2 + k) * 10 + 7) 0 y ns).
    { apply H; try exact R; try (intros; cbn; lia).
      - constructor; intros; cbn; try lia; [apply other_other|left; reflexivity].
      - intros i q u K. apply Nat.ltb_lt, K. }
    assert (N : NoDup (map snd (requests (dev_events 0 ns))) /\ In (5, 3) (requests (dev_events 0 ns)) /\ In (KUp last_up (mkFlight 0 1 3 9 32 10)) ns).
    { vm_compute in R. injection R as _ <-. split; [|split].
      - cbn. repeat constructor; cbn; intuition discriminate.
      - cbn. tauto.
      - cbn. tauto. }
    destruct N as (N1 & N2 & N3). destruct (O N1 5 3 N2) as (_ & O2). specialize (O2 _ _ N3 eq_refl eq_refl). unfold last_up in O2. lia.
  - intros Hk w n T D ops y ns i Ln Hf Ht Hd R. pose proof (ws_tx w Ln 0 0). pose proof (Ht 0 0). pose proof (ws_delay w Ln 0 0%nat 0%nat). pose proof (Hd 0 0%nat 0%nat).
    apply over_longer with (a := (Z.of_nat n + 1) * T + D); [nia|].
    eapply (link_over (isl_step (w_tx w) (w_rate w) (w_fits w)) (fun i => w_tx w (w_rate w i)) (isl_spread (w_tx w) (w_rate w) (w_delay w) (w_success w) (w_channel w))
      isl_hears (fun _ => tt) (fun i => t_inv (w_tx w (w_rate w i)))).
    + intros. apply (ws_tx w Ln).
    + intros. apply t_inv_init.
    + intros j e tr Ti. exact Ti.
    + intros j e tr o e' ev Hi Hs. apply (i_moves _ (fun u => ws_tx w Ln _ u) (w_fits w j)); assumption.
    + intros. apply Ht.
    + lia.
    + intros t j u p hops after r lasts E K. rewrite (isl_spread_eq w Ln) in E. injection E as <-. destruct K as [K|[]]. destruct (w_success w t u j (w_peer w j)); [|discriminate].
      injection K as <- <- <-. repeat split; [apply (ws_delay w Ln)|apply Hd|apply (ws_tx w Ln)|apply Ht].
    + intros j e o e' ev Hs. exact (i_room _ _ n (Hf j) _ _ _ _ Hs).
    + exact (isl_run_inv w Ln ops y ns R).
Qed.
Print Assumptions isl_delay.

(** The third packet waits for the first two and comes after 37; the fourth is refused. *)
Example delay_case :
  match v_run slow_down three_packets, w_run slow_isl three_packets with
  | Some (Ok (y, ns)), Some (Ok (z, ms)) =>
      requests (dev_events 0 ns) = [(5, 1); (5, 2); (5, 3)] /\ map fl_end (passed ns) = [22; 32; 42] /\ map fl_end (passed ms) = [22; 32; 42] /\
      (Z.of_nat 2 + 1) * 10 + 7 = last_up - 5 /\ l_queue y = [] /\ In (SRefuse 4) (dev_events 0 ns)
  | _, _ => False
  end.
Proof. vm_compute. repeat split; tauto. Qed.
