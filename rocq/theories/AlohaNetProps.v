(** C88, C89: Aloha from the stations to the satellites. *)
From Coq Require Import ZArith List Lia Bool Arith Permutation Sorting.Sorted.
From Verif Require Import Base SatAddrModel ConstellationModel DeviceModel DeviceSpec DeviceProofs DeviceProps DeviceCopies
  RxModel RxSpec RxProofs AlohaModel AlohaSpec AlohaProofs AlohaProps CrdsaModel
  ChannelModel SystemModel SystemSpec SystemProofs SystemMacs SystemProps UplinkSpec UplinkProofs
  PeelSpec SlotSpec SlotProofs CrdsaNetSpec CrdsaNetProofs CrdsaNetProps AlohaNetSpec AlohaNetProofs.
Import ListNotations.
Open Scope Z_scope.

(** What the receiver of a satellite did in a run that has come to rest. *)
Lemma sat_at_rest : forall M (w : network) (rx : mac_rx M) m0 ops y ns s, proper w -> net_run w rx m0 ops = Some (Ok (y, ns)) -> y_queue y = [] ->
  exists st, rx_run rx (rx_init m0) (sat_ops s ns) = Some (Ok st) /\ st_pending st = [] /\ sat_ups s ns = flat_map snd (st_log st).
Proof.
  intros M w rx m0 ops y ns s (P1 & P2 & P3 & P4) R Q. unfold net_run in R.
  pose proof (y_run_inv _ _ _ _ _ _ _ _ _ _ _ _ _ _ P1 P2 P3 _ _ _ R) as I.
  destruct (yi_sat _ _ _ _ _ _ _ _ _ _ _ _ _ _ _ _ I s) as (st & E1 & _ & E3 & _ & E5). rewrite Q in E3. cbn in E3. eauto.
Qed.

(** ** C89: without slots *)
Lemma aloha_clear : forall w slot below garbage ops y ns s, proper w -> w_mac w = TxAloha slot -> (forall t p g s, 0 < w_loss w t p g s) ->
  (forall p i, 0 < i -> below p i = true) -> NoDup (sent_uids ops) ->
  net_run w (aloha_mac below) (aloha_init garbage) ops = Some (Ok (y, ns)) -> y_queue y = [] -> finish_first [] (sat_ops s ns) ->
  forall u, In u (sat_ups s ns) <-> clear w s ns u.
Proof.
  intros w slot below garbage ops y ns s P Em Po NC N R Q Ff u.
  destruct (uplink_distinct w _ _ slot P Em ops y ns s N R) as [D Sa].
  pose proof (frames_arrive_at_rest _ _ _ _ _ _ _ s P R Q) as F.
  destruct (sat_at_rest _ _ _ _ _ _ _ s P R Q) as (st & E1 & E3 & E5).
  assert (Pw : Forall (fun r => 0 < rx_pow r) (receptions (sat_ops s ns))).
  { apply Forall_forall. intros a Ha. apply (Permutation_in _ F) in Ha. apply in_flat_map in Ha. destruct Ha as (nt & _ & Hb).
    apply beam_in in Hb. destruct Hb as (t & g & k & v & tag & _ & _ & _ & _ & ->). apply Po. }
  pose proof (aloha_alone_partial below _ NC Sa D Pw Ff garbage st) as A.
  destruct (base_inv_holds _ _ _ _ _ E1 Sa) as (B & _). rewrite E3, app_nil_r in B. rewrite E5, in_flat_map. split.
  - intros ((a & up) & Hl & Hu). cbn [snd] in Hu. destruct (A a up E1 Hl) as [[-> Al]|[-> _]]; [|destruct Hu]. destruct Hu as [<-|[]].
    assert (Ha : In a (receptions (sat_ops s ns))) by (apply (Permutation_in _ (Permutation_sym B)); apply in_map_iff; exists (a, [rx_uid a]); auto).
    exists a. split; [apply (Permutation_in _ F); exact Ha|]. split; [reflexivity|]. intros c Hc. apply Al. apply (Permutation_in _ (Permutation_sym F)). exact Hc.
  - intros (b & Hb & <- & Al). assert (Hb' : In b (receptions (sat_ops s ns))) by (apply (Permutation_in _ (Permutation_sym F)); exact Hb).
    apply (Permutation_in _ B) in Hb'. apply in_map_iff in Hb'. destruct Hb' as ((b' & up) & Eb & Hl). cbn in Eb. subst b'.
    exists (b, up). split; [exact Hl|]. cbn [snd]. destruct (A b up E1 Hl) as [[-> _]|[_ (c & Hc & Nc & O)]]; [left; reflexivity|].
    exfalso. apply (Al c); auto. apply (Permutation_in _ F). exact Hc.
Qed.

(** When no frame touches another, those and only those get through that overlap no other. *)
Theorem aloha_uplink_partial : forall w slot below garbage ops y ns s, proper w -> w_mac w = TxAloha slot -> (forall t p g s, 0 < w_loss w t p g s) ->
  (forall p i, 0 < i -> below p i = true) -> NoDup (sent_uids ops) ->
  net_run w (aloha_mac below) (aloha_init garbage) ops = Some (Ok (y, ns)) -> y_queue y = [] -> no_touch w s ns ->
  forall u, In u (sat_ups s ns) <-> clear w s ns u.
Proof.
  intros w slot below garbage ops y ns s P Em Po NC N R Q Nt. eapply aloha_clear; eauto.
  destruct (uplink_distinct w _ _ slot P Em ops y ns s N R) as [D Sa]. pose proof (frames_arrive_at_rest _ _ _ _ _ _ _ s P R Q) as F.
  destruct (sat_at_rest _ _ _ _ _ _ _ s P R Q) as (st & E1 & _). apply (untied _ _ _ _ _ E1 Sa).
  intros a b Ha Hb. apply Nt; apply (Permutation_in _ F); assumption.
Qed.
Print Assumptions aloha_uplink_partial.

(** Any rule of capture: each frame is judged by the busy period it is in. *)
Theorem aloha_uplink_capture_partial : forall w slot below garbage ops y ns s, proper w -> w_mac w = TxAloha slot -> NoDup (sent_uids ops) ->
  net_run w (aloha_mac below) (aloha_init garbage) ops = Some (Ok (y, ns)) -> y_queue y = [] -> no_touch w s ns ->
  forall u, In u (sat_ups s ns) <-> exists b, In b (beams w s ns) /\ rx_uid b = u /\ judged below (beams w s ns) b [u].
Proof.
  intros w slot below garbage ops y ns s P Em N R Q Nt u.
  destruct (uplink_distinct w _ _ slot P Em ops y ns s N R) as [D Sa]. pose proof (frames_arrive_at_rest _ _ _ _ _ _ _ s P R Q) as F.
  destruct (sat_at_rest _ _ _ _ _ _ _ s P R Q) as (st & E1 & E3 & E5).
  assert (Ff : finish_first [] (sat_ops s ns)).
  { apply (untied _ _ _ _ _ E1 Sa). intros a b Ha Hb. apply Nt; apply (Permutation_in _ F); assumption. }
  pose proof (aloha_capture_partial below _ Sa D Ff garbage st) as A.
  assert (J : forall a up, judged below (receptions (sat_ops s ns)) a up <-> judged below (beams w s ns) a up).
  { assert (In2 : forall x, In x (receptions (sat_ops s ns)) <-> In x (beams w s ns))
      by (intros x; split; [apply (Permutation_in _ F)|apply (Permutation_in _ (Permutation_sym F))]).
    assert (Sb : forall a b, same_busy (receptions (sat_ops s ns)) a b <-> same_busy (beams w s ns) a b).
    { intros a b. unfold same_busy. split; intros [H1 H2]; (split; [exact H1|]); intros t Ht; destruct (H2 t Ht) as (r & Hr & X); exists r; (split; [apply In2; exact Hr|exact X]). }
    intros a up. unfold judged, others_of. split; intros (o & (O1 & O2) & X); exists o; (split; [split; [exact O1|]|exact X]); intros b; rewrite O2, In2, Sb; reflexivity. }
  destruct (base_inv_holds _ _ _ _ _ E1 Sa) as (B & _). rewrite E3, app_nil_r in B. rewrite E5, in_flat_map. split.
  - intros ((a & up) & Hl & Hu). cbn [snd] in Hu. pose proof (A a up E1 Hl) as K.
    assert (Eu : up = [rx_uid a]) by (destruct K as (o & _ & [[_ ->]|[_ ->]]); [reflexivity|destruct Hu]).
    subst up. destruct Hu as [<-|[]]. exists a. split; [|split; [reflexivity|apply J; exact K]].
    apply (Permutation_in _ F). apply (Permutation_in _ (Permutation_sym B)). apply in_map_iff. exists (a, [rx_uid a]); auto.
  - intros (b & Hb & <- & K). apply (Permutation_in _ (Permutation_sym F)), (Permutation_in _ B), in_map_iff in Hb.
    destruct Hb as ((b' & up) & Eb & Hl). cbn in Eb. subst b'. exists (b, up). split; [exact Hl|]. cbn [snd].
    apply J in K. pose proof (A b up E1 Hl) as K'. destruct K as (o & O & [[X _]|[_ X]]); [|discriminate].
    destruct K' as (o' & O' & [[_ ->]|[[X1 X2] _]]); [left; reflexivity|].
    assert (Pm : Permutation o o').
    { apply NoDup_Permutation; [apply O|apply O'|]. intros x. rewrite (proj2 O x), (proj2 O' x). reflexivity. }
    assert (T : total o = total o').
    { clear -Pm. unfold total. induction Pm; cbn [fold_right]; lia. }
    destruct X as [->|X]; [apply Permutation_nil in Pm; contradiction|]. rewrite T in X. congruence.
Qed.
Print Assumptions aloha_uplink_capture_partial.

(** Touching or not: a frame that meets no other at the satellite always gets through. *)
Theorem aloha_uplink_apart : forall w slot below garbage ops y ns s b, proper w -> w_mac w = TxAloha slot -> NoDup (sent_uids ops) ->
  net_run w (aloha_mac below) (aloha_init garbage) ops = Some (Ok (y, ns)) -> y_queue y = [] ->
  In b (beams w s ns) -> apart_from_all (beams w s ns) b -> In (rx_uid b) (sat_ups s ns).
Proof.
  intros w slot below garbage ops y ns s b P Em N R Q Hb Ap.
  destruct (uplink_distinct w _ _ slot P Em ops y ns s N R) as [D Sa]. pose proof (frames_arrive_at_rest _ _ _ _ _ _ _ s P R Q) as F.
  destruct (sat_at_rest _ _ _ _ _ _ _ s P R Q) as (st & E1 & E3 & E5). destruct (base_inv_holds _ _ _ _ _ E1 Sa) as (B & _). rewrite E3, app_nil_r in B.
  pose proof Hb as Hb'. apply (Permutation_in _ (Permutation_sym F)), (Permutation_in _ B), in_map_iff in Hb'. destruct Hb' as ((b' & up) & Eb & Hl). cbn in Eb. subst b'.
  rewrite E5, in_flat_map. exists (b, up). split; [exact Hl|]. cbn [snd].
  rewrite (aloha_apart_received below garbage _ st b up E1 Sa (distinct_separate _ D)); [left; reflexivity| |exact Hl].
  intros c Hc. apply Ap. apply (Permutation_in _ F). exact Hc.
Qed.
Print Assumptions aloha_uplink_apart.

(** Frames last 10 and arrive 100 later.  1 and 2 collide; 3 comes when 2 ends and overlaps nothing, but is lost. *)
Definition plain_net : network :=
  mkNet LittleEndian small_con (fun r u => 10) (fun _ => 1) (fun _ g s => 100) (fun _ p _ _ => 3)
    (fun _ _ _ _ => true) (fun g => 1000 + Z.of_nat g) (fun _ q _ => (length q <? 5)%nat)
    (TxAloha 0) (fun _ => sat_make LittleEndian 1 1 0) (fun _ => 30).
Definition touch_ops : list yop := [YSend 0 0 1 7; YNext; YSend 5 1 2 7; YNext; YNext; YSend 15 2 3 7] ++ repeat YNext 9.

Lemma plain_proper : proper plain_net.
Proof. split; [intros; cbn; lia|]. split; [intros; cbn; lia|]. split; [exact Logic.I|intros; cbn; lia]. Qed.

Theorem aloha_uplink_refuted :
  ~ (forall w slot below garbage ops y ns s, proper w -> w_mac w = TxAloha slot -> (forall t p g s, 0 < w_loss w t p g s) ->
       (forall p i, 0 < i -> below p i = true) -> NoDup (sent_uids ops) ->
       net_run w (aloha_mac below) (aloha_init garbage) ops = Some (Ok (y, ns)) -> y_queue y = [] ->
       forall u, In u (sat_ups s ns) <-> clear w s ns u).
Proof.
  intros H.
  assert (X : match net_run plain_net (aloha_mac no_capture) (aloha_init 0) touch_ops with
    | Some (Ok (y, ns)) => y_queue y = [] /\ sat_ups 7 ns = [] /\ beams plain_net 7 ns = [mkRx 1 100 110 3; mkRx 2 105 115 3; mkRx 3 115 125 3]
    | _ => False end) by (vm_compute; repeat split).
  destruct (net_run plain_net (aloha_mac no_capture) (aloha_init 0) touch_ops) as [[[y ns]| | |]|] eqn:R; try contradiction.
  destruct X as (Q & U & B).
  assert (K : In 3 (sat_ups 7 ns)); [|rewrite U in K; destruct K].
  apply (H plain_net 0 no_capture 0 touch_ops y ns 7%nat plain_proper eq_refl); auto.
  - intros; cbn; lia.
  - intros p i Hi. apply Z.ltb_lt. exact Hi.
  - repeat constructor; cbn; intuition lia.
  - exists (mkRx 3 115 125 3). rewrite B. split; [right; right; left; reflexivity|]. split; [reflexivity|].
    intros c [<-|[<-|[<-|[]]]] Ne O; unfold overlap in O; cbn in O; [lia|lia|congruence].
Qed.
Print Assumptions aloha_uplink_refuted.

(** One tick later it gets through. *)
Example aloha_uplink_case :
  match net_run plain_net (aloha_mac no_capture) (aloha_init 0) ([YSend 0 0 1 7; YNext; YSend 5 1 2 7; YNext; YNext; YNext; YSend 16 2 3 7] ++ repeat YNext 8) with
  | Some (Ok (y, ns)) => y_queue y = [] /\ sat_ups 7 ns = [3] /\ no_touch plain_net 7 ns
  | _ => False
  end.
Proof.
  vm_compute. split; [reflexivity|]. split; [reflexivity|].
  intros a b [<-|[<-|[<-|[]]]] [<-|[<-|[<-|[]]]]; discriminate.
Qed.

(** ** C88: with slots *)
Lemma together_nodup : forall w s ns t, NoDup (map rx_uid (beams w s ns)) -> NoDup (sent_together w s ns t).
Proof.
  intros w s ns t. unfold sent_together. induction ns as [|n ns IH]; intros N; [constructor|]. cbn [filter].
  change (beams w s (n :: ns)) with (beam w s n ++ beams w s ns) in N. rewrite map_app in N.
  assert (N2 : NoDup (map rx_uid (beams w s ns))) by (clear -N; induction (map rx_uid (beam w s n)) as [|x l IHl]; [exact N|inversion N; auto]).
  specialize (IH N2). destruct (note_time n =? t); [|exact IH].
  change (beams w s (n :: ?l)) with (beam w s n ++ beams w s l). rewrite map_app.
  assert (Sub : forall v, In v (map rx_uid (beams w s (filter (fun n => note_time n =? t) ns))) -> In v (map rx_uid (beams w s ns))).
  { intros v Hv. apply in_map_iff in Hv. destruct Hv as (r & <- & Hr). apply in_map. apply in_flat_map in Hr. destruct Hr as (m & Hm & Hr).
    apply filter_In in Hm. apply in_flat_map. exists m. split; [apply Hm|exact Hr]. }
  revert N IH Sub. generalize (map rx_uid (beam w s n)). intros l N IH Sub. induction l as [|x l IHl]; [exact IH|]. cbn [app] in *.
  inversion N as [|? ? N1 N3]; subst. constructor; [|apply IHl; exact N3]. intros Hx. apply N1. apply in_app_iff in Hx. apply in_or_app.
  destruct Hx as [Hx|Hx]; auto.
Qed.

Lemma only_one : forall (l : list Z) u, NoDup l -> (forall v, In v l <-> v = u) -> l = [u].
Proof.
  intros l u N H. destruct l as [|x l]; [destruct (proj2 (H u) eq_refl)|]. assert (x = u) by (apply H; left; reflexivity). subst x.
  f_equal. destruct l as [|z l]; [reflexivity|]. exfalso. assert (z = u) by (apply H; right; left; reflexivity). subst z.
  inversion N as [|? ? N1 _]. apply N1. left; reflexivity.
Qed.

(** With slots and guard time, what gets through is what was transmitted alone. *)
Theorem slotted_aloha_uplink : forall w slot n base spread below garbage ops y ns s, proper w -> guarded w slot n base spread ->
  w_mac w = TxAloha slot -> (forall p i, 0 < i -> below p i = true) -> NoDup (sent_uids ops) ->
  net_run w (aloha_mac below) (aloha_init garbage) ops = Some (Ok (y, ns)) -> y_queue y = [] ->
  NoDup (sat_ups s ns) /\ forall u, In u (sat_ups s ns) <-> alone w s ns u.
Proof.
  intros w slot n base spread below garbage ops y ns s P G Em NC N R Q.
  destruct (uplink_slotted w _ _ slot n base spread P G ops y ns s N R) as (Sl & Sa & Po).
  destruct (uplink_distinct w _ _ slot P Em ops y ns s N R) as [D _].
  pose proof (frames_arrive_at_rest _ _ _ _ _ _ _ s P R Q) as F.
  destruct (sat_at_rest _ _ _ _ _ _ _ s P R Q) as (st & E1 & E3 & E5).
  pose proof (slots_hold _ _ _ _ _ E1 Sa Sl) as [_ Ff _ _ _ _].
  assert (Bd : NoDup (map rx_uid (beams w s ns))) by (eapply beams_distinct; eauto).
  split.
  - rewrite E5. pose proof (aloha_capture_partial below _ Sa D Ff garbage st) as A. destruct (base_inv_holds _ _ _ _ _ E1 Sa) as (B & _).
    rewrite E3, app_nil_r in B. unfold distinct in D. apply (Permutation_map rx_uid) in B. apply (Permutation_NoDup B) in D. rewrite map_map in D.
    specialize (fun a up => A a up E1). clear -D A. induction (st_log st) as [|[a up] l IH]; [constructor|]. cbn [map flat_map snd fst] in *.
    inversion D as [|? ? D1 D2]; subst. assert (Hup : up = [rx_uid a] \/ up = []).
    { destruct (A a up (or_introl eq_refl)) as (o & _ & [[_ ->]|[_ ->]]); auto. }
    specialize (IH D2 (fun a up H => A a up (or_intror H))). destruct Hup as [->| ->]; [|exact IH]. cbn [app]. constructor; [|exact IH].
    intros Hx. apply in_flat_map in Hx. destruct Hx as ((b & up') & Hb & Hu). cbn [snd] in Hu. apply D1. apply in_map_iff. exists (b, up'). split; [|exact Hb].
    destruct (A b up' (or_intror Hb)) as (o & _ & [[_ ->]|[_ ->]]); [|destruct Hu]. destruct Hu as [E|[]]. exact E.
  - intros u. rewrite (aloha_clear w slot below garbage ops y ns s P Em (gu_power _ _ _ _ _ G) NC N R Q Ff u).
    assert (Tr : travelling w s (y_queue y) = []) by (rewrite Q; reflexivity).
    pose proof (slot_together w _ _ slot n base spread P G ops y ns s N R Tr) as T.
    assert (T' : forall b, In b (beams w s ns) -> In (rx_uid b) (sent_together w s ns (slot_at slot base s b * slot))).
    { intros b Hb. apply T. unfold packets. apply in_map. apply filter_In. split; [apply (Permutation_in _ (Permutation_sym F)); exact Hb|apply Z.eqb_refl]. }
    assert (T2 : forall k v, In v (sent_together w s ns (k * slot)) -> exists c, In c (beams w s ns) /\ rx_uid c = v /\ slot_at slot base s c = k).
    { intros k v Hv. apply T in Hv. unfold packets in Hv. apply in_map_iff in Hv. destruct Hv as (c & Ec & Hc). apply filter_In in Hc. destruct Hc as [Hc Ek].
      apply Z.eqb_eq in Ek. exists c. split; [apply (Permutation_in _ F); exact Hc|]. auto. }
    destruct Sl as (S1 & S2 & _).
    assert (Re : forall b, In b (beams w s ns) -> In b (receptions (sat_ops s ns))) by (intros b; apply (Permutation_in _ (Permutation_sym F))).
    split.
    + intros (b & Hb & Eu & Cl). exists (slot_at slot base s b * slot). apply only_one; [apply together_nodup; exact Bd|]. intros v. split.
      * intros Hv. destruct (T2 _ _ Hv) as (c & Hc & Ec & Ek). subst v u. destruct (Z.eq_dec (rx_uid c) (rx_uid b)) as [E|Ne]; [exact E|].
        exfalso. apply (Cl c Hc); [congruence|]. split; apply S1; auto.
      * intros ->. rewrite <- Eu. apply T'. exact Hb.
    + intros (t & Et). assert (Hu : In u (sent_together w s ns t)) by (rewrite Et; left; reflexivity).
      pose proof Hu as Hu'. apply in_together in Hu'. destruct Hu' as (nt & b & Hn & Etm & Hbm & Eub).
      assert (Hb : In b (beams w s ns)) by (apply in_flat_map; eauto).
      destruct (beam_slot w _ _ slot n base spread P G ops y ns s b N R Hb) as (nt' & Hn' & Hb' & Et' & _).
      assert (Es : t = slot_at slot base s b * slot).
      { pose proof (one_air w _ _ slot P Em ops y ns (rx_uid b) N R) as L.
        destruct (beam_in _ _ _ _ Hbm) as (t1 & g1 & k1 & u1 & tag1 & -> & E1u & _).
        destruct (beam_in _ _ _ _ Hb') as (t2 & g2 & k2 & u2 & tag2 & -> & E2u & _). cbn [note_time] in *.
        pose proof (in_air _ _ _ _ _ _ Hn) as A1. pose proof (in_air _ _ _ _ _ _ Hn') as A2. rewrite <- E1u in A1. rewrite <- E2u in A2.
        destruct (on_air_at (rx_uid b) ns) as [|z [|]]; [destruct A1| |cbn in L; lia]. destruct A1 as [<-|[]], A2 as [<-|[]]. congruence. }
      exists b. split; [exact Hb|]. split; [exact Eub|]. intros c Hc Nc [O1 O2].
      assert (Ec : slot_at slot base s c = slot_at slot base s b).
      { destruct (Z.lt_trichotomy (slot_at slot base s c) (slot_at slot base s b)) as [L|[E|L]]; [|exact E|].
        - pose proof (S2 c b (Re c Hc) (Re b Hb) L). lia.
        - pose proof (S2 b c (Re b Hb) (Re c Hc) L). lia. }
      apply Nc. apply (uid_inj _ _ _ Bd Hc Hb). pose proof (T' c Hc) as Hv. rewrite Ec, <- Es, Et in Hv. destruct Hv as [Hv|[]]. congruence.
Qed.
Print Assumptions slotted_aloha_uplink.

(** Slots of 40, frames of 20, delays of 100 to 104: 1 and 2 in one slot, 3 and 4 in slots of their own. *)
Definition slotted_net : network :=
  mkNet LittleEndian small_con (fun r u => 20) (fun _ => 1) (fun _ g s => 100 + Z.of_nat (min g 4)) (fun _ p _ _ => 3)
    (fun _ _ _ _ => true) (fun g => 1000 + Z.of_nat g) (fun _ q _ => (length q <? 5)%nat)
    (TxAloha 40) (fun _ => sat_make LittleEndian 1 1 0) (fun _ => 30).
Definition slotted_ops : list yop := [YSend 3 0 1 7; YSend 7 1 2 8; YSend 9 0 3 7] ++ repeat YNext 5 ++ [YSend 85 2 4 9] ++ repeat YNext 11.

Example slotted_aloha_uplink_case : proper slotted_net /\ guarded slotted_net 40 1 (fun _ => 100) 4 /\
  match net_run slotted_net (aloha_mac no_capture) (aloha_init 0) slotted_ops with
  | Some (Ok (y, ns)) => y_queue y = [] /\ sat_ups 7 ns = [3; 4] /\ nodup (list_eq_dec Z.eq_dec) (meetings slotted_net 7 ns) = [[1; 2]; [3]; [4]; []]
  | _ => False
  end.
Proof.
  assert (D : forall g, 0 <= Z.of_nat (min g 4) <= 4) by (intros; pose proof (Nat.le_min_r g 4); lia).
  split; [|split].
  - split; [intros; cbn; lia|]. split; [intros t g s; cbn [slotted_net w_delay]; specialize (D g); lia|]. split; [exact Logic.I|intros; cbn; lia].
  - constructor; try (intros; cbn; lia). intros t g s; cbn [slotted_net w_delay]; specialize (D g); lia.
  - vm_compute. repeat split.
Qed.
