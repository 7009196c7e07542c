(** Theorems about whole networks, and about a ground station whose MAC sends replicas. *)
From Coq Require Import ZArith List Lia Bool Arith Sorting.Sorted.
From Verif Require Import Base SatAddrModel ConstellationModel DeviceModel DeviceSpec DeviceProofs DeviceProps DeviceCopies
  RxModel RxSpec RxProofs AlohaModel CrdsaModel ChannelModel SystemModel SystemSpec SystemProofs SystemMacs.
Import ListNotations.
Open Scope Z_scope.

(** * Networks *)
(** Everything that is set up before a run; [w_a0], [w_p0]: where each station points first and its power. *)
Record network := mkNet {
  w_host : host; w_con : constellation; w_tx : Z -> Z -> Z; w_rate : nat -> Z;
  w_delay : Z -> nat -> nat -> Z; w_loss : Z -> Z -> nat -> nat -> Z; w_success : Z -> Z -> nat -> nat -> bool;
  w_addr : nat -> Z; w_fits : nat -> list Z -> Z -> bool; w_mac : tx_mac; w_a0 : nat -> sat_address; w_p0 : nat -> Z }.
Definition net_run {M} (w : network) (rx : mac_rx M) (m0 : M) (ops : list yop) :=
  y_run (w_host w) (w_con w) (w_tx w) (w_rate w) (w_delay w) (w_loss w) (w_success w) (w_addr w) (w_fits w) (w_mac w) rx
    (y_init (w_a0 w) (w_p0 w) m0) ops.

(** Frames take time, delays are not negative, the CRDSA slots are numbers from 0 and there is a replica at all. *)
Definition proper (w : network) : Prop :=
  (forall r u, 0 < w_tx w r u) /\ (forall t g s, 0 <= w_delay w t g s) /\ mac_wf (w_mac w) /\
  (forall g u, (1 <= copies (w_mac w) g u)%nat).
Definition one_copy (w : network) : Prop := match w_mac w with TxCrdsa _ _ _ => False | _ => True end.

(** The satellite that station [g] points at after the calls [ops]. *)
Definition tracked (w : network) (g : nat) (ops : list yop) : result (option nat) :=
  get_satellite_addr (w_host w) (w_con w) (pointing (w_a0 w g) (orders g ops)).

(** * C62: what the network as a whole does *)

(** Each station and each satellite, seen alone, behaves like the model it has for itself; nothing asked for is
    lost, added or moved in time. *)
Theorem network_refines_parts : forall M (w : network) (rx : mac_rx M) m0 ops y ns, proper w ->
  net_run w rx m0 ops = Some (Ok (y, ns)) ->
  happened ns = asked ops /\ StronglySorted Z.le (map note_time ns) /\
  (forall g, g_run (w_fits w g) (copies (w_mac w) g) (g_init (w_a0 w g) (w_p0 w g)) (station_ops g ns)
     = Some (Ok (y_ground y g, station_events g ns))) /\
  (forall s, exists st, rx_run rx (rx_init m0) (sat_ops s ns) = Some (Ok st) /\ sane (sat_ops s ns) /\
     st_mac st = y_mac y s /\ flat_map snd (st_log st) = sat_ups s ns).
Proof.
  intros M w rx m0 ops y ns (P1 & P2 & P3 & P4) R. unfold net_run in R.
  pose proof (y_run_inv _ _ _ _ _ _ _ _ _ _ _ _ _ _ P1 P2 P3 _ _ _ R) as I.
  split; [eapply run_happened; eauto|]. split; [apply (yi_times _ _ _ _ _ _ _ _ _ _ _ _ _ _ _ _ I)|].
  split; [apply (yi_ground _ _ _ _ _ _ _ _ _ _ _ _ _ _ _ _ I)|].
  intros s. destruct (yi_sat _ _ _ _ _ _ _ _ _ _ _ _ _ _ _ _ I s) as (st & E1 & E2 & _ & _ & E3).
  exists st. split; [exact E1|]. split; [|auto]. apply Forall_forall. intros x Hx.
  destruct (yi_received _ _ _ _ _ _ _ _ _ _ _ _ _ _ _ _ I s x Hx) as (src & proto & r & _ & E). rewrite E. specialize (P1 r (rx_uid x)). lia.
Qed.
Print Assumptions network_refines_parts.

Lemma asked_split : forall ops l1 t g u p l2, asked ops = l1 ++ (t, g, GSend u p) :: l2 ->
  exists o1 o2, ops = o1 ++ YSend t g u p :: o2 /\ asked o1 = l1.
Proof.
  induction ops as [|o ops IH]; intros l1 t g u p l2 E; [destruct l1; discriminate|].
  change (o :: ops) with ([o] ++ ops) in E. unfold asked in E. rewrite flat_map_app in E. fold (asked ops) in E.
  destruct o as [t' g' u' p'|t' g' a|t' g' q|]; cbn [flat_map app] in E.
  4:{ destruct (IH _ _ _ _ _ _ E) as (o1 & o2 & -> & A). exists (YNext :: o1), o2. auto. }
  all: destruct l1 as [|x l1]; cbn [app] in E.
  1:{ injection E as -> -> -> -> _. exists [], ops. auto. }
  2, 4: discriminate.
  all: injection E as <- E; destruct (IH _ _ _ _ _ _ E) as (o1 & o2 & -> & A).
  - exists (YSend t' g' u' p' :: o1), o2. cbn. fold (asked o1). rewrite A. auto.
  - exists (YRetarget t' g' a :: o1), o2. cbn. fold (asked o1). rewrite A. auto.
  - exists (YPower t' g' q :: o1), o2. cbn. fold (asked o1). rewrite A. auto.
Qed.

Lemma pointing_no_mac : forall l a, pointing a (filter no_mac l) = pointing a l.
Proof. induction l as [|[u p|b|p|k] l IH]; intros a; cbn [filter no_mac pointing]; auto. Qed.

(** What is passed up at [t] by satellite [s] was sent at an earlier time from station [g], which pointed at [s]
    then, had it accepted, and put it on the air at [tt]. *)
Definition came_from (w : network) (ops : list yop) (ns : list note) (late : Z -> nat -> nat -> Z -> Z) (t : Z) (s : nat) (u src proto : Z) : Prop :=
  exists o1 t0 g p o2, ops = o1 ++ YSend t0 g u p :: o2 /\ In u (accepted (station_events g ns)) /\
    src = w_addr w g /\ proto = u16 p /\ tracked w g o1 = Ok (Some s) /\
    exists tt, transmits ns tt g u /\ t0 <= tt /\ w_success w tt u g s = true /\ tt + late tt g s u <= t.

Lemma provenance : forall M (w : network) (rx : mac_rx M) m0 bound late ops y ns, proper w -> honest rx m0 bound ->
  (forall x g tt s u, rx_start x = tt + w_delay w tt g s -> rx_end x = rx_start x + w_tx w (w_rate w g) u -> tt + late tt g s u <= bound x) ->
  NoDup (sent_uids ops) -> net_run w rx m0 ops = Some (Ok (y, ns)) ->
  forall t s u src proto, In (NUp t s u src proto) ns -> came_from w ops ns late t s u src proto.
Proof.
  intros M w rx m0 bound late ops y ns (P1 & P2 & P3 & P4) Ho Lt N R t s u src proto U. unfold net_run in R.
  destruct (delivery _ _ _ _ _ _ _ _ _ _ _ _ _ _ P1 P2 P3 bound Ho P4 _ _ _ N R _ _ _ _ _ U)
    as (n1 & n2 & t0 & g & p & ev & E & Ac & Es & Ep & Gs & tt & Tr & Le & Su & x & Ux & Sx & Ex & Bx).
  assert (Ha : happened ns = asked ops) by (eapply (run_happened (w_host w)); eauto).
  rewrite E, happened_app in Ha. cbn [happened flat_map app] in Ha. fold (happened n2) in Ha. symmetry in Ha.
  destruct (asked_split _ _ _ _ _ _ _ Ha) as (o1 & o2 & Eo & Ao).
  exists o1, t0, g, p, o2. split; [exact Eo|]. split.
  { rewrite E. unfold station_events. rewrite flat_map_app. cbn [flat_map]. rewrite Nat.eqb_refl. unfold accepted. rewrite !flat_map_app.
    apply in_or_app. right. apply in_or_app. left. apply in_flat_map. exists (EAccept u). split; [exact Ac|left; reflexivity]. }
  split; [exact Es|]. split; [exact Ep|]. split.
  { unfold tracked, orders. rewrite Ao, orders_station, pointing_no_mac. exact Gs. }
  exists tt. split; [exact Tr|]. split; [exact Le|]. split; [exact Su|]. specialize (Lt x g tt s u Sx Ex). lia.
Qed.

(** Not before the whole frame has arrived. *)
Definition whole_frame (w : network) (tt : Z) (g s : nat) (u : Z) : Z := w_delay w tt g s + w_tx w (w_rate w g) u.

Theorem uplink_provenance_none : forall (w : network) ops y ns, proper w ->
  NoDup (sent_uids ops) -> net_run w none_mac tt ops = Some (Ok (y, ns)) ->
  forall t s u src proto, In (NUp t s u src proto) ns -> came_from w ops ns (whole_frame w) t s u src proto.
Proof.
  intros w ops y ns P N R t s u src proto U. eapply (provenance _ w none_mac tt rx_end); eauto; [|unfold whole_frame; intros; lia].
  apply single_honest, always_single, none_always.
Qed.
Print Assumptions uplink_provenance_none.

(** Whatever the capture threshold, whatever collides. *)
Theorem uplink_provenance_aloha : forall (w : network) below garbage ops y ns, proper w ->
  NoDup (sent_uids ops) -> net_run w (aloha_mac below) (aloha_init garbage) ops = Some (Ok (y, ns)) ->
  forall t s u src proto, In (NUp t s u src proto) ns -> came_from w ops ns (whole_frame w) t s u src proto.
Proof.
  intros w below g0 ops y ns P N R t s u src proto U.
  eapply (provenance _ w (aloha_mac below) (aloha_init g0) rx_end); eauto; [|unfold whole_frame; intros; lia].
  apply single_honest, aloha_single.
Qed.
Print Assumptions uplink_provenance_aloha.

(** CRDSA, with any number of replicas: the same, but a packet recovered by cancellation may be passed up while
    its only frame has just begun (see [crdsa_whole_frame_refuted]). *)
Theorem uplink_provenance_crdsa : forall (w : network) below two garbage ops y ns, proper w ->
  NoDup (sent_uids ops) -> net_run w (crdsa_mac below two) (crdsa_init garbage) ops = Some (Ok (y, ns)) ->
  forall t s u src proto, In (NUp t s u src proto) ns -> came_from w ops ns (fun tt g s _ => w_delay w tt g s) t s u src proto.
Proof.
  intros w below two g0 ops y ns P N R t s u src proto U.
  eapply (provenance _ w (crdsa_mac below two) (crdsa_init g0) rx_start); eauto; [|intros; lia].
  apply crdsa_honest.
Qed.
Print Assumptions uplink_provenance_crdsa.

Lemma counted_up : forall M (w : network) (rx : mac_rx M) m0 ops y ns u g, proper w -> single rx ->
  NoDup (sent_uids ops) -> net_run w rx m0 ops = Some (Ok (y, ns)) ->
  (exists t p, In (t, g, GSend u p) (asked ops)) -> (ups u ns + lost u ns <= copies (w_mac w) g u)%nat.
Proof.
  intros M w rx m0 ops y ns u g (P1 & P2 & P3 & P4) Si N R S. unfold net_run in R.
  destruct (counted_run _ _ _ _ _ _ _ _ _ _ _ _ _ _ P1 P2 P3 P4 Si _ _ _ u R) as (k & C & _).
  destruct (airs_bound _ _ _ _ _ _ _ _ _ _ _ _ _ _ P1 P2 P3 P4 _ _ _ u g N R S) as [_ B]. unfold counted in C. lia.
Qed.

Lemma sent_in_asked : forall ops u, In u (sent_uids ops) -> exists t g p, In (t, g, GSend u p) (asked ops).
Proof.
  induction ops as [|o ops IH]; intros u H; [destruct H|]. cbn [sent_uids flat_map] in H. fold (sent_uids ops) in H.
  apply in_app_or in H. destruct H as [H|H].
  - destruct o as [t g v p|t g a|t g p|]; cbn in H; try tauto. destruct H as [<-|[]]. exists t, g, p. left. reflexivity.
  - destruct (IH u H) as (t & g & p & I). exists t, g, p. cbn [asked flat_map]. apply in_or_app. right. exact I.
Qed.

Lemma up_was_sent : forall w ops ns late t s u src proto, came_from w ops ns late t s u src proto -> In u (sent_uids ops).
Proof.
  intros w ops ns late t s u src proto (o1 & t0 & g & p & o2 & -> & _). unfold sent_uids. rewrite flat_map_app.
  apply in_or_app. right. left. reflexivity.
Qed.

Lemma at_most_once : forall M (w : network) (rx : mac_rx M) m0 ops y ns u, proper w -> one_copy w -> single rx ->
  NoDup (sent_uids ops) -> net_run w rx m0 ops = Some (Ok (y, ns)) -> (ups u ns + lost u ns <= 1)%nat.
Proof.
  intros M w rx m0 ops y ns u P O Si N R. destruct (in_dec Z.eq_dec u (sent_uids ops)) as [Y|No].
  - destruct (sent_in_asked _ _ Y) as (t & g & p & I).
    pose proof (counted_up M w rx m0 ops y ns u g P Si N R (ex_intro _ t (ex_intro _ p I))) as L.
    unfold one_copy, copies in *. destruct (w_mac w); try contradiction; lia.
  - destruct P as (P1 & P2 & P3 & P4). unfold net_run in R.
    destruct (counted_run _ _ _ _ _ _ _ _ _ _ _ _ _ _ P1 P2 P3 P4 Si _ _ _ u R) as (k & C & _).
    assert (Z0 : airs u (all_events ns) = 0%nat); [|unfold counted in C; lia].
    destruct (Nat.eq_dec (airs u (all_events ns)) 0) as [|Ne]; [assumption|]. exfalso.
    apply No. rewrite <- sent_asked, <- (run_happened _ _ _ _ _ _ _ _ _ _ _ _ _ _ P1 P2 P3 _ _ _ R).
    (* a frame on the air was sent *)
    assert (exists g, airs u (station_events g ns) <> 0%nat) as [g Ng].
    { clear - Ne. induction ns as [|n ns IH]; [cbn in Ne; congruence|].
      change (n :: ns) with ([n] ++ ns) in *. unfold all_events in Ne. rewrite flat_map_app in Ne. fold (all_events ns) in Ne.
      unfold airs in Ne. rewrite times_app in Ne. fold (airs u (all_events ns)) in Ne.
      destruct (Nat.eq_dec (airs u (all_events ns)) 0) as [E|E].
      - destruct n as [t g o ev| | |]; try (cbn [flat_map app] in Ne; rewrite times_nil in Ne; lia).
        exists g. unfold station_events. rewrite flat_map_app. unfold airs. rewrite times_app. cbn [flat_map] in *. rewrite Nat.eqb_refl. lia.
      - destruct (IH E) as [g Hg]. exists g. unfold station_events. rewrite flat_map_app. unfold airs. rewrite times_app.
        fold (station_events g ns). fold (airs u (station_events g ns)). lia. }
    pose proof (station_inv _ _ _ _ _ _ _ _ _ _ _ _ _ _ P1 P2 P3 P4 _ _ _ g N R) as Ci.
    pose proof (ci_air _ _ _ _ Ci u) as Ai.
    assert (In u (handed (station_events g ns))).
    { destruct (in_dec Z.eq_dec u (handed (station_events g ns))) as [|Nh]; [assumption|]. rewrite (occurs_out _ _ Nh) in Ai. lia. }
    rewrite sent_happened. eapply (station_sends (w_rate w) (w_loss w) (w_success w) (w_addr w) (w_fits w) (w_a0 w) (w_p0 w) g). apply (ci_sub _ _ _ _ Ci). rewrite (ci_fifo _ _ _ _ Ci). apply in_or_app. left. exact H.
Qed.

(** One copy is passed up at most once, by whatever satellite; a packet the channel dropped never. *)
Theorem uplink_at_most_once_none : forall (w : network) ops y ns u, proper w -> one_copy w ->
  NoDup (sent_uids ops) -> net_run w none_mac tt ops = Some (Ok (y, ns)) -> (ups u ns + lost u ns <= 1)%nat.
Proof. intros w ops y ns u P O N R. eapply at_most_once; eauto. apply always_single, none_always. Qed.
Print Assumptions uplink_at_most_once_none.

Theorem uplink_at_most_once_aloha : forall (w : network) below garbage ops y ns u, proper w -> one_copy w ->
  NoDup (sent_uids ops) -> net_run w (aloha_mac below) (aloha_init garbage) ops = Some (Ok (y, ns)) -> (ups u ns + lost u ns <= 1)%nat.
Proof. intros w below g0 ops y ns u P O N R. eapply at_most_once; eauto. apply aloha_single. Qed.
Print Assumptions uplink_at_most_once_aloha.

(** Whenever a packet is sent, its station points at a satellite that is there; enough slots for the replicas. *)
Definition well_aimed (w : network) (ops : list yop) : Prop := forall l1 t g u p l2, ops = l1 ++ YSend t g u p :: l2 ->
  exists s, tracked w g l1 = Ok (Some s).
Definition enough_slots (w : network) : Prop :=
  match w_mac w with TxCrdsa _ slots replicas => forall g u, (replicas g u <= length (slots g u))%nat | _ => True end.

Lemma enough_plan : forall w, enough_slots w -> plan_ok (w_mac w).
Proof.
  intros w E t g u. unfold enough_slots in E. destruct (w_mac w) as [|slot|slot slots replicas]; cbn [air_times]; eauto.
  unfold crdsa_send, selected_slots. destruct (Nat.ltb_spec (length (slots g u)) (replicas g u)) as [L|L]; [specialize (E g u); lia|].
  cbn [rbind rmap]. eauto.
Qed.

Lemma none_total : rx_total none_mac.
Proof. intros m r. cbn. eauto. Qed.
Lemma aloha_total : forall below, rx_total (aloha_mac below).
Proof. intros below m r. cbn [aloha_mac mac_finish]. unfold aloha_finish. eauto. Qed.

Lemma occurs_one : forall u l, NoDup l -> In u l -> occurs u l = 1%nat.
Proof. intros u l N H. pose proof (occurs_nodup l u N). pose proof (occurs_in l u H). lia. Qed.

(** No assertion fails and nothing undefined happens; left alone, the network comes to rest, and then every
    accepted packet has gone out as often as its MAC wanted. *)
Definition comes_to_rest {M} (w : network) (rx : mac_rx M) (m0 : M) (ops : list yop) : Prop :=
  exists k y ns, net_run w rx m0 (ops ++ repeat YNext k) = Some (Ok (y, ns)) /\ y_queue y = [] /\
    forall g u, In u (accepted (station_events g ns)) -> airs u (station_events g ns) = copies (w_mac w) g u.

(** Every frame that ends in a run of the network can be processed. *)
Definition live {M} (w : network) (rx : mac_rx M) (m0 : M) : Prop :=
  rx_live (w_host w) (w_con w) (w_tx w) (w_rate w) (w_delay w) (w_loss w) (w_success w) (w_addr w) (w_fits w) (w_mac w) rx (w_a0 w) (w_p0 w) m0.

Lemma total_alive : forall M (w : network) (rx : mac_rx M) m0, rx_total rx -> live w rx m0.
Proof. intros M w rx m0 T. apply total_live. exact T. Qed.

Lemma rest : forall M (w : network) (rx : mac_rx M) m0 ops r, proper w -> enough_slots w -> live w rx m0 ->
  NoDup (sent_uids ops) -> well_aimed w ops -> net_run w rx m0 ops = Some r ->
  (exists y ns, r = Ok (y, ns)) /\ comes_to_rest w rx m0 ops.
Proof.
  intros M w rx m0 ops r (P1 & P2 & P3 & P4) Es Rt N W R. unfold net_run in R.
  assert (Aw : aims_well (w_host w) (w_con w) (w_a0 w) ops) by exact W.
  destruct (safe_run _ _ _ _ _ _ _ _ _ _ _ _ _ _ P1 P2 P3 P4 (enough_plan w Es) Rt _ _ N Aw R) as [[y ns] ->].
  split; [eauto|].
  destruct (settles _ _ _ _ _ _ _ _ _ _ _ _ _ _ P1 P2 P3 P4 (enough_plan w Es) Rt _ _ _ _ eq_refl N Aw R) as (k & y' & ns' & R' & Q').
  exists k, y', ns'. split; [exact R'|]. split; [exact Q'|]. intros g u Hu.
  assert (N' : NoDup (sent_uids (ops ++ repeat YNext k))).
  { unfold sent_uids. rewrite flat_map_app. replace (flat_map _ (repeat YNext k)) with (@nil Z); [rewrite app_nil_r; exact N|].
    clear. induction k; auto. }
  destruct (settled_station _ _ _ _ _ _ _ _ _ _ _ _ _ _ P1 P2 P3 P4 _ _ _ g N' R' Q') as (_ & _ & Eh & A).
  rewrite A. pose proof (station_inv _ _ _ _ _ _ _ _ _ _ _ _ _ _ P1 P2 P3 P4 _ _ _ g N' R') as Ci.
  rewrite (occurs_one _ _ (ci_nodup _ _ _ _ Ci) Hu). lia.
Qed.

Theorem uplink_safe_none : forall (w : network) ops r, proper w -> enough_slots w ->
  NoDup (sent_uids ops) -> well_aimed w ops -> net_run w none_mac tt ops = Some r ->
  (exists y ns, r = Ok (y, ns)) /\ comes_to_rest w none_mac tt ops.
Proof. intros. eapply rest; eauto. apply total_alive, none_total. Qed.
Print Assumptions uplink_safe_none.

Theorem uplink_safe_aloha : forall (w : network) below garbage ops r, proper w -> enough_slots w ->
  NoDup (sent_uids ops) -> well_aimed w ops -> net_run w (aloha_mac below) (aloha_init garbage) ops = Some r ->
  (exists y ns, r = Ok (y, ns)) /\ comes_to_rest w (aloha_mac below) (aloha_init garbage) ops.
Proof. intros. eapply rest; eauto. apply total_alive, aloha_total. Qed.
Print Assumptions uplink_safe_aloha.

(** With the trivial MAC nothing but the channel loses packets: at rest, each frame sent was passed up or dropped. *)
Theorem uplink_exact_none : forall (w : network) ops y ns g u, proper w -> NoDup (sent_uids ops) ->
  net_run w none_mac tt ops = Some (Ok (y, ns)) -> y_queue y = [] -> In u (accepted (station_events g ns)) ->
  (ups u ns + lost u ns = copies (w_mac w) g u)%nat.
Proof.
  intros w ops y ns g u (P1 & P2 & P3 & P4) N R Q Hu. unfold net_run in R.
  destruct (counted_run _ _ _ _ _ _ _ _ _ _ _ _ _ _ P1 P2 P3 P4 (always_single _ _ none_always) _ _ _ u R) as (k & C & Ck).
  rewrite (Ck none_always) in C. unfold counted in C. rewrite Q in C. unfold arriving, finishing in C. rewrite !times_nil in C.
  pose proof (station_inv _ _ _ _ _ _ _ _ _ _ _ _ _ _ P1 P2 P3 P4 _ _ _ g N R) as Ci.
  assert (S : exists t p, In (t, g, GSend u p) (asked ops)).
  { pose proof (ci_sub _ _ _ _ Ci u Hu) as Hs. apply in_flat_map in Hs. destruct Hs as (o & Ho & Hu').
    destruct o as [v q| | |]; cbn in Hu'; try tauto. destruct Hu' as [->|[]].
    apply in_split in Ho. destruct Ho as (l1 & l2 & El). destruct (station_split _ _ _ _ _ El) as (n1 & t' & ev & n2 & E1 & _).
    exists t', q. rewrite <- (run_happened _ _ _ _ _ _ _ _ _ _ _ _ _ _ P1 P2 P3 _ _ _ R), E1, happened_app.
    apply in_or_app. right. left. reflexivity. }
  destruct (airs_bound _ _ _ _ _ _ _ _ _ _ _ _ _ _ P1 P2 P3 P4 _ _ _ u g N R S) as [Ea _].
  destruct (settled_station _ _ _ _ _ _ _ _ _ _ _ _ _ _ P1 P2 P3 P4 _ _ _ g N R Q) as (_ & _ & _ & A).
  rewrite A, (occurs_one _ _ (ci_nodup _ _ _ _ Ci) Hu) in Ea. lia.
Qed.
Print Assumptions uplink_exact_none.

(** A network of two stations and two satellites.  Packet 3 is lost in the channel; 1 and 2 were sent to satellite 7,
    5 to satellite 8 after retargeting. *)
Definition small_con : constellation :=
  match run_adds LittleEndian (con_new 1 2 2) [(1, 0, 7); (0, 1, 8)]%nat with Ok (c, _) => c | _ => con_new 1 2 2 end.
Definition small_net (m : tx_mac) : network :=
  mkNet LittleEndian small_con (fun r u => 10) (fun _ => 1) (fun _ g s => 100 + Z.of_nat g) (fun _ p _ _ => p - 20)
    (fun _ u _ _ => negb (u =? 3)) (fun g => 1000 + Z.of_nat g) (fun _ q _ => (length q <? 5)%nat) m
    (fun _ => sat_make LittleEndian 1 1 0) (fun _ => 30).
Definition small_ops : list yop :=
  [YSend 0 0 1 7; YSend 0 0 2 8; YSend 3 1 3 7; YRetarget 4 1 (sat_make LittleEndian 1 0 1); YSend 5 1 5 9] ++ repeat YNext 10.
Definition ups_of (ns : list note) : list note := filter (fun n => match n with NUp _ _ _ _ _ => true | _ => false end) ns.

Example uplink_case :
  match net_run (small_net TxNone) none_mac tt small_ops with
  | Some (Ok (y, ns)) => y_queue y = [] /\
      ups_of ns = [NUp 110 7 1 1000 7; NUp 120 7 2 1000 8; NUp 124 8 5 1001 9] /\ lost 3 ns = 1%nat
  | _ => False
  end.
Proof. vm_compute. repeat split; reflexivity. Qed.

(** With slots of 40 both stations send at 0 and 40: at satellite 7 the frames 1 and 4 overlap (0 + 100 and 0 + 101). *)
Example uplink_aloha_case :
  match net_run (small_net (TxAloha 40)) (aloha_mac no_capture) (aloha_init 0)
          ([YSend 0 0 1 7; YSend 0 0 2 8; YSend 0 1 4 7] ++ repeat YNext 12) with
  | Some (Ok (y, ns)) => y_queue y = [] /\ ups_of ns = [NUp 150 7 2 1000 8]
  | _ => False
  end.
Proof. vm_compute. repeat split; reflexivity. Qed.

(** CRDSA: station 0 sends three replicas of 1, the last two overlapping at the satellite (slots shorter than
    frames).  The end of the second closes the busy period although 9, from station 1, is still arriving; 1 being
    known, 9 is recovered from half of its only frame. *)
Definition early_net : network :=
  small_net (TxCrdsa 4 (fun g _ => if (g =? 0)%nat then [0; 5; 6] else [0]) (fun g _ => if (g =? 0)%nat then 3%nat else 1%nat)).
Definition early_ops : list yop := [YSend 0 0 1 7; YNext; YNext; YSend 17 1 9 7] ++ repeat YNext 12.
Definition transmissions (ns : list note) : list (Z * Z) :=
  flat_map (fun n => match n with NGround t _ _ ev => map (pair t) (flat_map (fun e => match e with EAir u _ => [u] | _ => [] end) ev) | _ => [] end) ns.

Lemma transmits_listed : forall ns t g u, transmits ns t g u -> In (t, u) (transmissions ns).
Proof. intros ns t g u (k & tag & I). apply in_flat_map. eexists. split; [exact I|]. left. reflexivity. Qed.

Example early_case :
  match net_run early_net (crdsa_mac no_capture 1000) (crdsa_init 0) early_ops with
  | Some (Ok (y, ns)) => ups_of ns = [NUp 110 7 1 1000 7; NUp 130 7 9 1001 7] /\ transmissions ns = [(0, 1); (20, 1); (20, 9); (24, 1)]
  | _ => False
  end.
Proof. vm_compute. split; reflexivity. Qed.

Definition crdsa_whole_frame : Prop := forall (w : network) below two garbage ops y ns, proper w -> NoDup (sent_uids ops) ->
  net_run w (crdsa_mac below two) (crdsa_init garbage) ops = Some (Ok (y, ns)) ->
  forall t s u src proto, In (NUp t s u src proto) ns -> came_from w ops ns (whole_frame w) t s u src proto.

Theorem crdsa_whole_frame_refuted : ~ crdsa_whole_frame.
Proof.
  intros C. pose proof early_case as X.
  destruct (net_run early_net (crdsa_mac no_capture 1000) (crdsa_init 0) early_ops) as [[[y ns]| | |]|] eqn:R; try contradiction.
  destruct X as [X1 X2].
  assert (P : proper early_net).
  { split; [intros; cbn; lia|]. split; [intros; unfold early_net, small_net; cbn [w_delay]; lia|]. split.
    - split; [lia|]. intros g u. destruct (g =? 0)%nat; repeat constructor; lia.
    - intros g u. cbn. destruct (g =? 0)%nat; lia. }
  assert (N : NoDup (sent_uids early_ops)) by (vm_compute; repeat constructor; cbn; intuition lia).
  assert (U : In (NUp 130 7 9 1001 7) ns).
  { assert (In (NUp 130 7 9 1001 7) (ups_of ns)) by (rewrite X1; right; left; reflexivity). apply filter_In in H. tauto. }
  destruct (C _ _ _ _ _ _ _ P N R _ _ _ _ _ U) as (o1 & t0 & g & p & o2 & _ & _ & Sr & _ & _ & tt & Tr & _ & _ & L).
  apply transmits_listed in Tr. rewrite X2 in Tr. unfold whole_frame in L. cbn [early_net small_net w_delay w_tx] in L. cbn [early_net small_net w_addr] in Sr.
  cbn in Tr. destruct Tr as [E|[E|[E|[E|[]]]]]; try discriminate E. injection E as <-. lia.
Qed.
Print Assumptions crdsa_whole_frame_refuted.

(** * C37: one packet at a time with replicas *)

(** Between the start and the end of a transmission of [u] at station [g]. *)
Definition on_air (u : Z) (tr : list gevent) : Prop := (dones u tr < airs u tr)%nat.
(** Claimed: never two packets on the air, never a second transmission before the first has ended. *)
Definition one_at_a_time (tr : list gevent) : Prop := forall tr1 tr2, tr = tr1 ++ tr2 ->
  (forall u v, on_air u tr1 -> on_air v tr1 -> u = v) /\ (forall u, (airs u tr1 <= dones u tr1 + 1)%nat).

Definition crdsa_one_at_a_time : Prop := forall w ops y ns g, proper w -> enough_slots w -> well_aimed w ops -> NoDup (sent_uids ops) ->
  net_run w none_mac tt ops = Some (Ok (y, ns)) -> one_at_a_time (station_events g ns).

(** Two replicas: the end of each makes the device take the next packet, so that after one packet two are out. *)
Definition two_net : network := small_net (TxCrdsa 20 (fun _ _ => [0; 1; 2]) (fun _ _ => 2%nat)).
Definition two_ops : list yop := [YSend 0 0 1 7; YSend 0 0 2 7; YSend 0 0 4 7] ++ repeat YNext 18.

Example two_replicas_case :
  match net_run two_net none_mac tt two_ops with
  | Some (Ok (_, ns)) => map (fun n => match n with NGround t _ _ ev => (t, map (fun e => match e with EAir u _ => u | EDone u => - u | _ => 0 end) ev) | _ => (0, []) end)
      (filter (fun n => match n with NGround _ _ (GMac _) _ => true | _ => false end) ns)
      = [(0, [1]); (10, [-1; 0]); (20, [1]); (30, [-1; 0]); (60, [2]); (60, [4]); (70, [-2]); (70, [-4]);
         (80, [2]); (80, [4]); (90, [-2]); (90, [-4])]
  | _ => False
  end.
Proof. vm_compute. reflexivity. Qed.

Theorem crdsa_one_at_a_time_refuted : ~ crdsa_one_at_a_time.
Proof.
  intros C.
  assert (P : proper two_net).
  { split; [intros; cbn; lia|]. split; [intros; unfold two_net, small_net; cbn [w_delay]; lia|]. split; [split; [lia|intros; repeat constructor; lia]|intros; cbn; lia]. }
  assert (E : enough_slots two_net) by (intros g u; cbn; lia).
  assert (W : well_aimed two_net two_ops).
  { intros l1 t g u p l2 Eq. exists 7%nat. unfold tracked. replace (pointing _ _) with (sat_make LittleEndian 1 1 0); [vm_compute; reflexivity|].
    assert (F : forall t a, ~ In (YRetarget t g a) l1).
    { intros t' a I. assert (J : In (YRetarget t' g a) two_ops) by (rewrite Eq; apply in_or_app; auto).
      unfold two_ops in J. cbn in J. intuition discriminate. }
    clear Eq. induction l1 as [|o l1 IH]; [reflexivity|].
    assert (F' : forall t a, ~ In (YRetarget t g a) l1) by (intros t' a I; apply (F t' a); right; exact I). specialize (IH F').
    change (o :: l1) with ([o] ++ l1). rewrite orders_app. destruct o as [t' g' u' p'|t' g' a|t' g' q|]; try exact IH.
    - unfold orders at 1. cbn. destruct (g' =? g)%nat; exact IH.
    - unfold orders at 1. cbn. destruct (Nat.eqb_spec g' g) as [->|Ne]; [exfalso; apply (F t' a); left; reflexivity|exact IH].
    - unfold orders at 1. cbn. destruct (g' =? g)%nat; exact IH. }
  assert (N : NoDup (sent_uids two_ops)) by (vm_compute; repeat constructor; cbn; intuition lia).
  destruct (net_run two_net none_mac tt two_ops) as [[[y ns]| | |]|] eqn:R;
    try (pose proof two_replicas_case as X; rewrite R in X; contradiction).
  specialize (C two_net two_ops y ns 0%nat P E W N R).
  assert (Sp : match net_run two_net none_mac tt two_ops with
    | Some (Ok (_, ns)) => on_air 2 (firstn 12 (station_events 0 ns)) /\ on_air 4 (firstn 12 (station_events 0 ns))
    | _ => False end) by (vm_compute; split; lia).
  rewrite R in Sp. destruct Sp as [O2 O4].
  destruct (C _ _ (eq_sym (firstn_skipn 12 (station_events 0 ns)))) as [A _]. specialize (A 2 4 O2 O4). discriminate.
Qed.
Print Assumptions crdsa_one_at_a_time_refuted.

(** What holds for any number of replicas, any schedule of the MAC: nothing fails, the queue stays in order, no
    packet goes out more often than its MAC wants, and if the MAC works on everything accepted goes out exactly
    that often.  Missing: one at a time, which is false. *)
Theorem crdsa_transmission_partial : forall fits copies a p ops r, (forall u, (1 <= copies u)%nat) -> NoDup (sends ops) ->
  g_run fits copies (g_init a p) ops = Some r ->
  exists d tr, r = Ok (d, tr) /\ accepted tr = handed tr ++ g_queue d /\ NoDup (accepted tr) /\
    (forall u, (dones u tr <= airs u tr)%nat /\ (airs u tr <= copies u)%nat) /\
    exists k d' tr', g_run fits copies (g_init a p) (ops ++ repeat (GMac 0) k) = Some (Ok (d', tr')) /\
      g_mac d' = [] /\ accepted tr' = accepted tr /\ handed tr' = accepted tr' /\
      forall u, In u (accepted tr) -> airs u tr' = copies u /\ dones u tr' = copies u.
Proof.
  intros fits copies a p ops r Sc N R. destruct (c_run fits copies Sc _ _ _ _ N R) as (d & tr & -> & I).
  exists d, tr. split; [reflexivity|]. split; [apply (ci_fifo _ _ _ _ I)|]. split; [apply (ci_nodup _ _ _ _ I)|]. split.
  { intros u. pose proof (ci_done _ _ _ _ I u). pose proof (ci_air _ _ _ _ I u) as Ai.
    assert (Nh : NoDup (handed tr)). { pose proof (ci_nodup _ _ _ _ I) as Na. rewrite (ci_fifo _ _ _ _ I) in Na. eapply nodup_app_l; exact Na. }
    pose proof (occurs_nodup _ u Nh). split; [lia|]. destruct (occurs u (handed tr)) as [|[|]]; lia. }
  destruct (c_drain fits copies Sc _ ops a p d tr eq_refl N R) as (k & d' & tr' & R' & M' & A').
  assert (N' : NoDup (sends (ops ++ repeat (GMac 0) k))).
  { unfold sends. rewrite flat_map_app. replace (flat_map _ (repeat _ k)) with (@nil Z); [rewrite app_nil_r; exact N|]. clear. induction k; auto. }
  destruct (c_run fits copies Sc _ _ _ _ N' R') as (d2 & tr2 & E & I'). injection E as <- <-.
  assert (B : g_busy d' = false). { destruct (g_busy d') eqn:B; [|reflexivity]. destruct (ci_busy _ _ _ _ I' B M'). }
  pose proof (ci_idle _ _ _ _ I' B) as Gq. pose proof (ci_fifo _ _ _ _ I') as Fi. rewrite Gq, app_nil_r in Fi.
  exists k, d', tr'. split; [exact R'|]. split; [exact M'|]. split; [exact A'|]. split; [symmetry; exact Fi|].
  intros u Hu. rewrite <- A' in Hu. pose proof (ci_air _ _ _ _ I' u) as Ai. pose proof (ci_done _ _ _ _ I' u) as Di.
  rewrite M' in Ai, Di. unfold held, flying in Ai, Di. rewrite times_nil in Ai. rewrite times_nil in Di.
  rewrite <- Fi, (occurs_one _ _ (ci_nodup _ _ _ _ I') Hu) in Ai. lia.
Qed.
Print Assumptions crdsa_transmission_partial.

(** And in a whole network, also with CRDSA stations. *)
Example two_replicas_rest : match net_run two_net none_mac tt two_ops with
  | Some (Ok (y, ns)) => (accepted (station_events 0 ns), map (fun u => airs u (station_events 0 ns)) [1; 2; 4]) = ([1; 2; 4], [2; 2; 2]%nat)
  | _ => False end.
Proof. vm_compute. reflexivity. Qed.
