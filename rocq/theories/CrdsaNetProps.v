(** C85, C86, C87: CRDSA from the stations to the satellites. *)
From Coq Require Import ZArith List Lia Bool Arith Permutation Sorting.Sorted.
From Verif Require Import Base SatAddrModel ConstellationModel DeviceModel DeviceSpec DeviceProofs DeviceProps DeviceCopies
  RxModel RxSpec RxProofs AlohaModel AlohaSpec AlohaProofs CrdsaModel CrdsaSpec CrdsaProofs CrdsaRun CrdsaSafe CrdsaProps
  ChannelModel SystemModel SystemSpec SystemProofs SystemMacs SystemProps UplinkSpec UplinkProofs
  PeelSpec PeelProofs SlotSpec SlotProofs PeelProps CrdsaNetSpec CrdsaNetProofs.
Import ListNotations.
Open Scope Z_scope.

(** ** C85: nothing but the loss model comes between a transmission and its reception *)

(** Whatever the MACs: the frames that a satellite has received, with those still travelling to it, are those sent
    to it and not lost, each once, after its delay, as long and as strong as it was sent. *)
Theorem frames_arrive : forall M (w : network) (rx : mac_rx M) m0 ops y ns s, proper w ->
  net_run w rx m0 ops = Some (Ok (y, ns)) ->
  Permutation (receptions (sat_ops s ns) ++ travelling w s (y_queue y)) (beams w s ns).
Proof. intros M w rx m0 ops y ns s P R. exact (flow_run w rx m0 P s ops y ns R). Qed.
Print Assumptions frames_arrive.

Theorem frames_arrive_at_rest : forall M (w : network) (rx : mac_rx M) m0 ops y ns s, proper w ->
  net_run w rx m0 ops = Some (Ok (y, ns)) -> y_queue y = [] -> Permutation (receptions (sat_ops s ns)) (beams w s ns).
Proof. intros M w rx m0 ops y ns s P R Q. pose proof (frames_arrive M w rx m0 ops y ns s P R) as F. rewrite Q, app_nil_r in F. exact F. Qed.
Print Assumptions frames_arrive_at_rest.

(** The frame of packet 3 is lost, the others arrive 100 or 101 later and last 10. *)
Example frames_arrive_case :
  match net_run (small_net TxNone) none_mac tt small_ops with
  | Some (Ok (y, ns)) => receptions (sat_ops 7 ns) = [mkRx 1 100 110 10; mkRx 2 110 120 10] /\
      beams (small_net TxNone) 7 ns = [mkRx 1 100 110 10; mkRx 2 110 120 10] /\ beams (small_net TxNone) 8 ns = [mkRx 5 114 124 10]
  | _ => False
  end.
Proof. vm_compute. repeat split; reflexivity. Qed.

(** ** C86: what a satellite passes up *)

(** The packets that it passes up are those that peeling decodes from what was transmitted together; each once. *)
Theorem crdsa_uplink : forall w slot n base spread below two garbage ops y ns s, proper w -> guarded w slot n base spread ->
  (forall p i, 0 < i -> below p i = true) -> slot * Z.of_nat n <= two -> NoDup (sent_uids ops) ->
  net_run w (crdsa_mac below two) (crdsa_init garbage) ops = Some (Ok (y, ns)) -> y_queue y = [] ->
  NoDup (sat_ups s ns) /\ forall u, In u (sat_ups s ns) <-> peels (meetings w s ns) u.
Proof.
  intros w slot n base spread below two garbage ops y ns s P G NC Mem N R Q.
  pose proof (uplink_slotted w _ _ slot n base spread P G ops y ns s N R) as (Sl & Sa & Po).
  pose proof (uplink_frames w _ _ slot n base spread P G ops y ns s two N R Mem) as Fr.
  pose proof P as (P1 & P2 & P3 & P4). pose proof R as R'. unfold net_run in R'.
  pose proof (y_run_inv _ _ _ _ _ _ _ _ _ _ _ _ _ _ P1 P2 P3 _ _ _ R') as I.
  destruct (yi_sat _ _ _ _ _ _ _ _ _ _ _ _ _ _ _ _ I s) as (st & E1 & _ & E3 & _ & E5). rewrite Q in E3. cbn in E3.
  destruct (slots_decoded below two garbage (slot_at slot base s) (frame_of slot n ns) (sat_ops s ns) st NC E1 E3 Sa Sl Po Fr) as [Nd Iff].
  rewrite E5 in *. split; [exact Nd|]. intros u. rewrite Iff.
  apply (meetings_slots w _ _ slot n base spread P G ops y ns s u N R). rewrite Q. reflexivity.
Qed.
Print Assumptions crdsa_uplink.

(** ** C87: two replicas *)
Lemma crdsa_live : forall w slot n base spread below two garbage, proper w -> guarded w slot n base spread ->
  (forall p i, 0 < i -> below p i = true) -> (forall g u, (copies (w_mac w) g u <= 2)%nat) ->
  live w (crdsa_mac below two) (crdsa_init garbage).
Proof.
  intros w slot n base spread below two garbage P G NC Cp ops y ns t s r src proto q N R Q.
  pose proof (uplink_slotted w _ _ slot n base spread P G ops y ns s N R) as (Sl & Sa & Po).
  pose proof P as (P1 & P2 & P3 & P4).
  pose proof (y_run_inv _ _ _ _ _ _ _ _ _ _ _ _ _ _ P1 P2 P3 _ _ _ R) as I.
  destruct (yi_sat _ _ _ _ _ _ _ _ _ _ _ _ _ _ _ _ I s) as (st & E1 & E2 & E3 & _ & _).
  rewrite Q, pend_cons in E3. cbn [finish_of] in E3. rewrite Nat.eqb_refl in E3.
  pose proof (slots_hold (slot_at slot base s) _ _ _ st E1 Sa Sl) as [I1 I2 _ _ _ _].
  assert (Rp : forall u, (replicas u (sat_ops s ns) <= 2)%nat).
  { intros u. destruct (uplink_replicas w _ _ slot n base spread P G ops y ns s u N R) as [g L]. specialize (Cp g u). lia. }
  destruct (two_holds below two garbage NC _ _ E1 Sa I1 I2 Po Rp) as (st' & E & T). injection E as <-.
  destruct (two_finish below two garbage (sat_ops s ns) st NC E1 Sa I1 I2 Po Rp T
    (do (m', up) <- mac_finish (crdsa_mac below two) (st_mac st) r ; Ok (mkSt (rx_end r) m' (pend s q) (st_log st ++ [(r, up)]))))
    as (st1 & E4 & _).
  - cbn [rx_step]. rewrite E3. reflexivity.
  - rewrite E2 in E4. destruct (mac_finish (crdsa_mac below two) (y_mac y s) r) as [x| | |]; cbn [rbind] in E4; try discriminate. eauto.
Qed.

Lemma guarded_slots : forall w slot n base spread, guarded w slot n base spread -> enough_slots w.
Proof.
  intros w slot n base spread G. pose proof (gu_mac _ _ _ _ _ G) as Gm. unfold enough_slots. destruct (w_mac w) as [| |d sl rp]; auto.
  destruct Gm as [_ Gm]. intros g u. destruct (Gm g u) as [E L]. apply Permutation_length in E. unfold set_slots_per_frame in E.
  rewrite map_length, seq_length in E. lia.
Qed.

(** With at most two replicas nothing fails, the network comes to rest, and then the satellites have passed up
    exactly what can be decoded. *)
Theorem crdsa_uplink_safe_partial : forall w slot n base spread below two garbage ops r, proper w -> guarded w slot n base spread ->
  (forall p i, 0 < i -> below p i = true) -> (forall g u, (copies (w_mac w) g u <= 2)%nat) ->
  NoDup (sent_uids ops) -> well_aimed w ops -> net_run w (crdsa_mac below two) (crdsa_init garbage) ops = Some r ->
  (exists y ns, r = Ok (y, ns)) /\ comes_to_rest w (crdsa_mac below two) (crdsa_init garbage) ops.
Proof.
  intros w slot n base spread below two garbage ops r P G NC Cp N W R.
  eapply rest; eauto; [eapply guarded_slots; eauto|eapply crdsa_live; eauto].
Qed.
Print Assumptions crdsa_uplink_safe_partial.

(** *** A network with slots of 40: frames of 10, delays to satellite 7 between 100 and 104. *)
Definition slots_of (l : list (nat * list Z)) (g : nat) : list Z :=
  match find (fun x => (fst x =? g)%nat) l with Some x => snd x | None => [0; 1; 2; 3] end.
Definition slot_net (l : list (nat * list Z)) (k : nat) : network :=
  mkNet LittleEndian small_con (fun r u => 10) (fun _ => 1) (fun _ g s => 100 + Z.of_nat (Nat.min g 4)) (fun _ p _ _ => 3)
    (fun _ u _ _ => negb (u =? 9)) (fun g => 1000 + Z.of_nat g) (fun _ q _ => (length q <? 5)%nat)
    (TxCrdsa 40 (fun g _ => slots_of l g) (fun _ _ => k)) (fun _ => sat_make LittleEndian 1 1 0) (fun _ => 30).

Lemma slot_net_ok : forall l k, Forall (fun x => Permutation (snd x) (set_slots_per_frame 4)) l -> (1 <= k <= 4)%nat ->
  proper (slot_net l k) /\ guarded (slot_net l k) 40 4 (fun _ => 100) 4.
Proof.
  intros l k F K.
  assert (Pm : forall g, Permutation (slots_of l g) (set_slots_per_frame 4)).
  { intros g. unfold slots_of. destruct (find _ l) as [x|] eqn:E; [|apply Permutation_refl]. apply find_some in E. destruct E as [E _].
    rewrite Forall_forall in F. apply F. exact E. }
  split.
  - split; [intros; cbn; lia|]. split; [intros; cbn [slot_net w_delay]; lia|]. split; [|intros; cbn; lia].
    cbn [slot_net w_mac mac_wf]. split; [lia|]. intros g _. apply Forall_forall. intros x Hx. apply (Permutation_in _ (Pm g)) in Hx.
    cbn in Hx. intuition lia.
  - constructor.
    + lia.
    + cbn. lia.
    + cbn [slot_net w_mac]. split; [reflexivity|]. intros g _. split; [apply Pm|exact K].
    + intros t g s. cbn [slot_net w_delay]. lia.
    + intros; cbn; lia.
    + intros; cbn; lia.
Qed.

(** Packets 1 and 2 meet in slot 0, 2 and 3 in slot 1; 1 is alone in slot 2 and 3 in slot 3; packet 9 is lost in the channel. *)
Definition four_slots (a b : Z) : list Z := a :: b :: filter (fun k => negb ((k =? a) || (k =? b))) [0; 1; 2; 3].
Definition met_net : network := slot_net [(0%nat, four_slots 0 2); (1%nat, four_slots 1 0); (2%nat, four_slots 1 3); (3%nat, four_slots 3 1)] 2.
Definition met_ops : list yop := [YSend 3 0 1 7; YSend 3 1 2 7; YSend 5 2 3 7; YSend 5 3 9 7] ++ repeat YNext 28.

Lemma four_perm : forall a b, In (a, b) [(0, 2); (1, 0); (1, 3); (3, 1); (0, 1); (2, 3)] -> Permutation (four_slots a b) (set_slots_per_frame 4).
Proof.
  intros a b H. cbn in H. destruct H as [H|[H|[H|[H|[H|[H|[]]]]]]]; injection H as <- <-; vm_compute;
    apply NoDup_Permutation; try (repeat constructor; cbn; intuition lia); cbn; intuition.
Qed.

Example crdsa_uplink_case : proper met_net /\ guarded met_net 40 4 (fun _ => 100) 4 /\ NoDup (sent_uids met_ops) /\
  match net_run met_net (crdsa_mac no_capture 320) (crdsa_init 0) met_ops with
  | Some (Ok (y, ns)) => y_queue y = [] /\ sat_ups 7 ns = [1; 2; 3] /\
      nodup (list_eq_dec Z.eq_dec) (meetings met_net 7 ns) = [[1; 2]; [2; 3]; [1]; [3]; []]
  | _ => False
  end.
Proof.
  assert (F : proper met_net /\ guarded met_net 40 4 (fun _ => 100) 4).
  { apply slot_net_ok; [|lia]. repeat constructor; apply four_perm; cbn; auto 10. }
  split; [apply F|]. split; [apply F|]. split; [repeat constructor; cbn; intuition lia|]. vm_compute. repeat split; reflexivity.
Qed.

(** Nobody turns away from the satellite pointed at first. *)
Lemma still_aimed : forall w ops, Forall (fun o => match o with YRetarget _ _ _ => False | _ => True end) ops ->
  (forall g, exists s, get_satellite_addr (w_host w) (w_con w) (w_a0 w g) = Ok (Some s)) -> well_aimed w ops.
Proof.
  intros w ops F H l1 t g u p l2 E. unfold tracked. rewrite E in F. apply Forall_app in F. destruct F as [F _].
  assert (K : forall a, pointing a (orders g l1) = a); [|rewrite K; apply H].
  intros a. clear E. unfold orders. induction F as [|o l Ho F IH]; [reflexivity|].
  change (o :: l) with ([o] ++ l). rewrite asked_app, filter_app, map_app.
  destruct o as [t' g' u' p'|t' g' b|t' g' q|]; cbn; try (destruct (g' =? g)%nat; cbn; exact IH); [contradiction|exact IH].
Qed.

(** Three replicas: packets 1 and 2 meet in slots 0 and 1; when 1 arrives alone in slot 2, 2 comes out of the first
    collision, and both collisions run empty in the same pass. *)
Definition thrice_net : network := slot_net [(0%nat, [0; 1; 2; 3]); (1%nat, [0; 1; 3; 2])] 3.
Definition thrice_ops : list yop := [YSend 3 0 1 7; YSend 3 1 2 7] ++ repeat YNext 22.

Theorem crdsa_uplink_safe_refuted :
  ~ (forall w slot n base spread below two garbage ops r, proper w -> guarded w slot n base spread ->
       (forall p i, 0 < i -> below p i = true) -> slot * Z.of_nat n <= two ->
       NoDup (sent_uids ops) -> well_aimed w ops -> net_run w (crdsa_mac below two) (crdsa_init garbage) ops = Some r ->
       exists y ns, r = Ok (y, ns)).
Proof.
  intros H.
  assert (R : net_run thrice_net (crdsa_mac no_capture 320) (crdsa_init 0) thrice_ops = Some UB) by (vm_compute; reflexivity).
  destruct (H thrice_net 40 4%nat (fun _ => 100) 4 no_capture 320 0 thrice_ops UB) as (y & ns & E); try discriminate E; try exact R.
  - apply slot_net_ok; [|lia]. constructor; [apply Permutation_refl|constructor; [|constructor]]. apply NoDup_Permutation;
      try (repeat constructor; cbn; intuition lia); cbn; intuition.
  - apply slot_net_ok; [|lia]. constructor; [apply Permutation_refl|constructor; [|constructor]]. apply NoDup_Permutation;
      try (repeat constructor; cbn; intuition lia); cbn; intuition.
  - intros p0 i Hi. apply Z.ltb_lt. exact Hi.
  - cbn. lia.
  - repeat constructor; cbn; intuition lia.
  - apply still_aimed; [repeat constructor|]. intros g. exists 7%nat. vm_compute. reflexivity.
Qed.
Print Assumptions crdsa_uplink_safe_refuted.

(** Two replicas, where everything comes to rest. *)
Example crdsa_uplink_safe_case : proper met_net /\ guarded met_net 40 4 (fun _ => 100) 4 /\ (forall g u, (copies (w_mac met_net) g u <= 2)%nat) /\
  well_aimed met_net met_ops /\ comes_to_rest met_net (crdsa_mac no_capture 320) (crdsa_init 0) met_ops.
Proof.
  destruct crdsa_uplink_case as (A & B & N & X). split; [exact A|]. split; [exact B|]. split; [intros; cbn; lia|].
  assert (W : well_aimed met_net met_ops).
  { apply still_aimed; [repeat constructor|]. intros g. exists 7%nat. vm_compute. reflexivity. }
  split; [exact W|]. destruct (net_run met_net (crdsa_mac no_capture 320) (crdsa_init 0) met_ops) as [r|] eqn:R; [|contradiction].
  eapply (crdsa_uplink_safe_partial met_net 40 4 (fun _ => 100) 4); eauto.
  - intros p0 i Hi. apply Z.ltb_lt. exact Hi.
Qed.

(** Without the guard time neighbours overlap: packet 2 of slot 0 arrives from 130 to 150, packet 1 of slot 1 from 140
    to 160.  Nothing is transmitted together with either of them, but both are lost. *)
Definition loose_net : network :=
  mkNet LittleEndian small_con (fun r u => 20) (fun _ => 1) (fun _ g s => if (g =? 1)%nat then 130 else 100) (fun _ p _ _ => 3)
    (fun _ _ _ _ => true) (fun g => 1000 + Z.of_nat g) (fun _ q _ => (length q <? 5)%nat)
    (TxCrdsa 40 (fun g _ => if (g =? 1)%nat then [0; 1; 2; 3] else [1; 0; 2; 3]) (fun _ _ => 1%nat)) (fun _ => sat_make LittleEndian 1 1 0) (fun _ => 30).
Definition loose_ops : list yop := [YSend 0 0 1 7; YSend 0 1 2 7] ++ repeat YNext 8.

Theorem crdsa_uplink_guard_refuted :
  ~ (forall w slot n below two garbage ops y ns s, proper w -> 0 < slot -> slot * Z.of_nat n < 2 ^ 63 ->
       match w_mac w with
       | TxCrdsa d slots repl => d = slot /\ forall g u, Permutation (slots g u) (set_slots_per_frame n) /\ (1 <= repl g u <= n)%nat
       | _ => False
       end -> (forall g u, w_tx w (w_rate w g) u < slot) -> (forall t p g s, 0 < w_loss w t p g s) ->
       (forall p i, 0 < i -> below p i = true) -> slot * Z.of_nat n <= two -> NoDup (sent_uids ops) ->
       net_run w (crdsa_mac below two) (crdsa_init garbage) ops = Some (Ok (y, ns)) -> y_queue y = [] ->
       forall u, In u (sat_ups s ns) <-> peels (meetings w s ns) u).
Proof.
  intros H.
  assert (X : match net_run loose_net (crdsa_mac no_capture 320) (crdsa_init 0) loose_ops with
    | Some (Ok (y, ns)) => y_queue y = [] /\ sat_ups 7 ns = [] /\ In [1] (meetings loose_net 7 ns)
    | _ => False end) by (vm_compute; repeat split; repeat (first [left; reflexivity|right])).
  destruct (net_run loose_net (crdsa_mac no_capture 320) (crdsa_init 0) loose_ops) as [[[y ns]| | |]|] eqn:R; try contradiction.
  destruct X as (Q & U & Me).
  assert (Pm : forall g : nat, Permutation (if (g =? 1)%nat then [0; 1; 2; 3] else [1; 0; 2; 3]) (set_slots_per_frame 4)).
  { intros g. destruct (g =? 1)%nat; cbn; [apply Permutation_refl|apply perm_swap]. }
  assert (Z : In 1 (sat_ups 7 ns)).
  { apply (H loose_net 40 4%nat no_capture 320 0 loose_ops y ns 7%nat); auto; try (intros; cbn; lia).
    - split; [intros; cbn; lia|]. split; [intros; cbn [loose_net w_delay]; destruct (_ =? _)%nat; lia|].
      split; [|intros; cbn; lia]. cbn [loose_net w_mac mac_wf]. split; [lia|]. intros g _. destruct (g =? 1)%nat; repeat constructor; lia.
    - cbn [loose_net w_mac]. split; [reflexivity|]. intros g _. split; [apply Pm|lia].
    - intros p0 i Hi. apply Z.ltb_lt. exact Hi.
    - repeat constructor; cbn; intuition lia.
    - apply (peels_closed _ [1]); [exact Me|left; reflexivity|]. intros v [<-|[]] Nv; congruence. }
  rewrite U in Z. destruct Z.
Qed.
Print Assumptions crdsa_uplink_guard_refuted.
