(** Frames of a slotted uplink arrive in slots. *)
From Coq Require Import ZArith List Lia Bool Arith Permutation Sorting.Sorted.
From Verif Require Import Base SatAddrModel ConstellationModel DeviceModel DeviceSpec DeviceProofs DeviceProps DeviceCopies
  RxModel RxSpec RxProofs AlohaModel AlohaSpec AlohaProofs AlohaProps CrdsaModel CrdsaSpec CrdsaProofs CrdsaRun CrdsaSafe CrdsaProps
  ChannelModel SystemModel SystemSpec SystemProofs SystemMacs SystemProps UplinkSpec UplinkProofs
  PeelSpec PeelProofs SlotSpec SlotProofs PeelProps CrdsaNetSpec.
Import ListNotations.
Open Scope Z_scope.

Lemma perm_prefix_nodup : forall A (a b l : list A), Permutation (a ++ b) l -> NoDup l -> NoDup a.
Proof. intros A a b l E N. apply (Permutation_NoDup (Permutation_sym E)) in N. eapply nodup_app_l; exact N. Qed.

Lemma beam_in : forall w s n r, In r (beam w s n) -> exists t g k u tag, n = NGround t g (GMac k) [EAir u tag] /\
  rx_uid r = u /\ rx_start r = t + w_delay w t g s /\ rx_end r = rx_start r + w_tx w (w_rate w g) u /\ rx_pow r = w_loss w t (tg_power tag) g s.
Proof.
  intros w s n r H. destruct n as [t g o ev| | |]; try destruct H. destruct o as [| | |k]; try destruct H.
  destruct ev as [|[| | |u tag|] [|]]; try destruct H. cbn [beam] in H. destruct (_ && _); [|destruct H]. destruct H as [<-|[]].
  exists t, g, k, u, tag. cbn. auto.
Qed.

Section Guarded.
Context {M : Type}.
Variable w : network.
Variable rx : mac_rx M.
Variable m0 : M.
Variable slot : Z.
Variable n : nat.
Variable base : nat -> Z.
Variable spread : Z.
Hypothesis P : proper w.
Hypothesis G : guarded w slot n base spread.

Definition slot_at (s : nat) (r : reception) : Z := (rx_start r - base s) / slot.

(** The transmissions of a packet: at boundaries of slots, at most so many as there are replicas, in one frame. *)
Lemma air_slots : forall ops y ns u, NoDup (sent_uids ops) -> net_run w rx m0 ops = Some (Ok (y, ns)) ->
  NoDup (on_air_at u ns) /\ exists g F, (length (on_air_at u ns) <= copies (w_mac w) g u)%nat /\
  forall t, In t (on_air_at u ns) -> exists k, t = k * slot /\ F * Z.of_nat n <= k < (F + 1) * Z.of_nat n.
Proof.
  intros ops y ns u N R. destruct G as [G1 G2 G3 _ _ _].
  assert (Em : w_mac w <> TxNone) by (intros E; rewrite E in G3; exact G3).
  pose proof (planned_run w rx m0 P Em u ops y ns N R) as [Z|(_ & t0 & g & l & A & E)].
  { unfold all_times in Z. apply app_eq_nil in Z. destruct Z as [Z _]. rewrite Z. split; [constructor|]. exists 0%nat, 0. split; [cbn; lia|]. intros t []. }
  clear Em. unfold all_times in E. destruct (w_mac w) as [|d|d slots repl]; [contradiction| |].
  - destruct G3 as [-> ->]. cbn [air_times] in A. rewrite Z.mul_1_r in G2.
    destruct (slotted_aloha slot t0 0 ltac:(lia)) as (t & Sd & ((k & Ek) & _) & _). rewrite Sd in A. cbn [map fst] in A. injection A as <-.
    split; [eapply perm_prefix_nodup; [exact E|]; repeat constructor; auto|]. exists g, k. cbn [copies]. split.
    + apply Permutation_length in E. rewrite app_length in E. cbn in E. lia.
    + intros t' Ht. assert (Hl : In t' [t]) by (apply (Permutation_in _ E); apply in_or_app; auto). destruct Hl as [<-|[]].
      exists k. split; [exact Ek|lia].
  - destruct G3 as [-> G3]. destruct (G3 g u) as [Pm Rp]. cbn [air_times] in A.
    destruct (crdsa_slots n (slots g u) slot (repl g u) t0 0 Pm ltac:(lia) G1 G2 ltac:(lia)) as (plan & F & Sd & Bd & Ln & Nd & Pl).
    rewrite Sd in A. cbn [rmap] in A. injection A as <-.
    split; [eapply perm_prefix_nodup; [exact E|exact Nd]|]. destruct Bd as [[f Ef] _]. exists g, f. cbn [copies]. split.
    + apply Permutation_length in E. rewrite app_length, map_length, Ln in E. lia.
    + intros t Ht. assert (Hl : In t (map fst plan)) by (apply (Permutation_in _ E); apply in_or_app; auto).
      apply in_map_iff in Hl. destruct Hl as ((t' & e) & Et & Hp). cbn in Et. subst t'. destruct (Pl t e Hp) as (_ & k & Hk & ->).
      exists (f * Z.of_nat n + k). split; [rewrite Ef; ring|lia].
Qed.

Lemma in_air : forall ns t g k u tag, In (NGround t g (GMac k) [EAir u tag]) ns -> In t (on_air_at u ns).
Proof. intros ns t g k u tag H. apply in_flat_map. eexists. split; [exact H|]. cbn. rewrite Z.eqb_refl. left; reflexivity. Qed.

(** Where a frame falls in its slot. *)
Lemma beam_slot : forall ops y ns s r, NoDup (sent_uids ops) -> net_run w rx m0 ops = Some (Ok (y, ns)) -> In r (beams w s ns) ->
  exists nt, In nt ns /\ In r (beam w s nt) /\ note_time nt = slot_at s r * slot /\ In (slot_at s r * slot) (on_air_at (rx_uid r) ns) /\
    base s + slot_at s r * slot <= rx_start r <= base s + slot_at s r * slot + spread /\
    rx_start r + spread < rx_end r /\ rx_end r + spread < rx_start r + slot.
Proof.
  intros ops y ns s r N R Hr. apply in_flat_map in Hr. destruct Hr as (nt & Hn & Hb). exists nt. split; [exact Hn|]. split; [exact Hb|].
  apply beam_in in Hb. destruct Hb as (t & g & k & u & tag & -> & Eu & Es & Ee & _).
  destruct (air_slots ops y ns u N R) as (_ & g' & F & _ & Sl). destruct (Sl t (in_air _ _ _ _ _ _ Hn)) as (z & Ez & _).
  destruct (gu_fit _ _ _ _ _ G g u) as [F1 F2]. pose proof (gu_delay _ _ _ _ _ G t g s) as D. pose proof (gu_slot _ _ _ _ _ G) as Sp.
  pose proof (proj1 P (w_rate w g) u) as Tp.
  assert (Es' : slot_at s r = z).
  { unfold slot_at. symmetry. apply (Z.div_unique _ _ _ (w_delay w t g s - base s)); [left; lia|]. rewrite Es, Ez. ring. }
  rewrite Es', <- Ez. cbn [note_time]. split; [reflexivity|]. split; [rewrite Eu; eapply in_air; exact Hn|]. lia.
Qed.

Lemma beams_nodup : forall s ns, (forall u, NoDup (on_air_at u ns)) ->
  (forall nt r, In nt ns -> In r (beam w s nt) -> note_time nt = slot_at s r * slot) ->
  NoDup (map (fun r => (rx_uid r, slot_at s r)) (beams w s ns)) /\
  (forall r, In r (beams w s ns) -> In (slot_at s r * slot) (on_air_at (rx_uid r) ns)).
Proof.
  intros s. induction ns as [|nt ns IH]; intros Nd Sl; [split; [constructor|intros r []]|].
  change (nt :: ns) with ([nt] ++ ns) in *. destruct IH as [IH1 IH2].
  { intros u. specialize (Nd u). rewrite on_air_app in Nd. clear -Nd. induction (on_air_at u [nt]) as [|x l IHl]; [exact Nd|]. inversion Nd; auto. }
  { intros n' r Hn. apply Sl. apply in_or_app; auto. }
  rewrite beams_app. change (beams w s [nt]) with (beam w s nt ++ []). rewrite app_nil_r. split.
  - rewrite map_app. destruct (beam w s nt) as [|r l] eqn:Eb; [exact IH1|].
    assert (Hr : In r (beam w s nt)) by (rewrite Eb; left; reflexivity).
    pose proof (Sl nt r (or_introl eq_refl) Hr) as Et.
    destruct (beam_in _ _ _ _ Hr) as (t & g & k & u & tag & -> & Eu & _). cbn [note_time] in Et.
    assert (l = []).
    { cbn [beam] in Eb. destruct (_ && _); [|discriminate]. injection Eb as _ <-. reflexivity. }
    subst l. cbn [map app]. constructor; [|exact IH1]. intros Hx. apply in_map_iff in Hx. destruct Hx as (r' & E' & Hr').
    injection E' as E1 E2. specialize (IH2 r' Hr'). specialize (Nd u). rewrite on_air_app in Nd.
    eapply nodup_app_disj; [exact Nd| |rewrite E1, E2, Eu, <- Et in IH2; exact IH2]. cbn. rewrite Z.eqb_refl. left; reflexivity.
  - intros r Hr. rewrite on_air_app. apply in_app_iff in Hr. apply in_or_app. destruct Hr as [Hr|Hr]; [left|right; auto].
    pose proof (Sl nt r (or_introl eq_refl) Hr) as Et.
    destruct (beam_in _ _ _ _ Hr) as (t & g & k & u & tag & -> & Eu & _). cbn [note_time] in Et. rewrite <- Et, Eu. cbn.
    rewrite Z.eqb_refl. left; reflexivity.
Qed.

Lemma received_beams : forall ops y ns s, net_run w rx m0 ops = Some (Ok (y, ns)) -> incl (receptions (sat_ops s ns)) (beams w s ns).
Proof.
  intros ops y ns s R r Hr. pose proof (flow_run w rx m0 P s ops y ns R) as F. apply (Permutation_in _ F). apply in_or_app; auto.
Qed.

Lemma all_beams_nodup : forall ops y ns s, NoDup (sent_uids ops) -> net_run w rx m0 ops = Some (Ok (y, ns)) ->
  NoDup (map (fun r => (rx_uid r, slot_at s r)) (beams w s ns)).
Proof.
  intros ops y ns s N R. apply beams_nodup.
  - intros u. apply (air_slots ops y ns u N R).
  - intros nt r Hn Hr. assert (Hb : In r (beams w s ns)) by (apply in_flat_map; eauto).
    apply beam_in in Hr. destruct Hr as (t & g & k & u & tag & -> & Eu & Es & Ee & _).
    destruct (air_slots ops y ns u N R) as (_ & g' & F & _ & Sl). destruct (Sl t (in_air _ _ _ _ _ _ Hn)) as (z & Ez & _).
    pose proof (gu_delay _ _ _ _ _ G t g s) as D. destruct (gu_fit _ _ _ _ _ G g u) as [F1 F2]. pose proof (proj1 P (w_rate w g) u) as Tp.
    cbn [note_time]. rewrite Ez. f_equal. unfold slot_at. apply (Z.div_unique _ _ _ (w_delay w t g s - base s)); [left; lia|].
    rewrite Es, Ez. ring.
Qed.

Lemma uplink_slotted : forall ops y ns s, NoDup (sent_uids ops) -> net_run w rx m0 ops = Some (Ok (y, ns)) ->
  slotted (slot_at s) (sat_ops s ns) /\ sane (sat_ops s ns) /\ Forall (fun r => 0 < rx_pow r) (receptions (sat_ops s ns)).
Proof.
  intros ops y ns s N R. pose proof (received_beams ops y ns s R) as Ib. pose proof (gu_slot _ _ _ _ _ G) as Sp.
  split; [|split].
  - split; [|split].
    + intros a b Ha Hb E. destruct (beam_slot ops y ns s a N R (Ib a Ha)) as (_ & _ & _ & _ & _ & A1 & A2 & A3).
      destruct (beam_slot ops y ns s b N R (Ib b Hb)) as (_ & _ & _ & _ & _ & B1 & B2 & B3). rewrite E in *. lia.
    + intros a b Ha Hb E. destruct (beam_slot ops y ns s a N R (Ib a Ha)) as (_ & _ & _ & _ & _ & A1 & A2 & A3).
      destruct (beam_slot ops y ns s b N R (Ib b Hb)) as (_ & _ & _ & _ & _ & B1 & B2 & B3). nia.
    + pose proof (all_beams_nodup ops y ns s N R) as Nd. pose proof (flow_run w rx m0 P s ops y ns R) as F.
      apply (Permutation_map (fun r => (rx_uid r, slot_at s r))) in F. rewrite map_app in F. eapply perm_prefix_nodup; [exact F|exact Nd].
  - apply Forall_forall. intros a Ha. apply Ib in Ha. apply in_flat_map in Ha. destruct Ha as (nt & _ & Hb). apply beam_in in Hb.
    destruct Hb as (t & g & k & u & tag & _ & _ & _ & -> & _). pose proof (proj1 P (w_rate w g) u). lia.
  - apply Forall_forall. intros a Ha. apply Ib in Ha. apply in_flat_map in Ha. destruct Ha as (nt & _ & Hb). apply beam_in in Hb.
    destruct Hb as (t & g & k & u & tag & _ & _ & _ & _ & ->). apply (gu_power _ _ _ _ _ G).
Qed.

(** The frame of the access scheme in which a packet is sent. *)
Definition frame_of (ns : list note) (u : Z) : Z := hd 0 (on_air_at u ns) / (slot * Z.of_nat n).

Lemma frame_of_slot : forall ops y ns u k, NoDup (sent_uids ops) -> net_run w rx m0 ops = Some (Ok (y, ns)) ->
  In (k * slot) (on_air_at u ns) -> (0 < n)%nat -> frame_of ns u * Z.of_nat n <= k < (frame_of ns u + 1) * Z.of_nat n.
Proof.
  intros ops y ns u k N R H Np. destruct (air_slots ops y ns u N R) as (_ & g & F & _ & Sl). pose proof (gu_slot _ _ _ _ _ G) as Sp.
  destruct (Sl _ H) as (k1 & E1 & B1). assert (k1 = k) by nia. subst k1.
  unfold frame_of. destruct (on_air_at u ns) as [|t l]; [destruct H|]. cbn [hd].
  destruct (Sl t (or_introl eq_refl)) as (k2 & -> & B2).
  replace (k2 * slot / (slot * Z.of_nat n)) with F; [exact B1|].
  rewrite (Z.mul_comm k2), Z.div_mul_cancel_l by lia. apply (Z.div_unique _ _ _ (k2 - F * Z.of_nat n)); [left; lia|lia].
Qed.

Lemma uplink_frames : forall ops y ns s memory, NoDup (sent_uids ops) -> net_run w rx m0 ops = Some (Ok (y, ns)) ->
  slot * Z.of_nat n <= memory -> frame_slots memory (frame_of ns) (slot_at s) (receptions (sat_ops s ns)).
Proof.
  intros ops y ns s memory N R Mem. pose proof (received_beams ops y ns s R) as Ib. pose proof (gu_slot _ _ _ _ _ G) as Sp.
  assert (Np : (0 < n)%nat).
  { pose proof (gu_mac _ _ _ _ _ G) as Gm. destruct (w_mac w) as [|d|d sl rp]; [contradiction|destruct Gm; lia|]. destruct Gm as [_ Gm]. destruct (Gm 0%nat 0). lia. }
  assert (K : forall a, In a (receptions (sat_ops s ns)) ->
    frame_of ns (rx_uid a) * Z.of_nat n <= slot_at s a < (frame_of ns (rx_uid a) + 1) * Z.of_nat n).
  { intros a Ha. destruct (beam_slot ops y ns s a N R (Ib a Ha)) as (_ & _ & _ & _ & A & _). exact (frame_of_slot ops y ns _ _ N R A Np). }
  split.
  - intros a b Ha Hb E. pose proof (K a Ha) as Ka. pose proof (K b Hb) as Kb. rewrite E in Ka. nia.
  - intros a b Ha Hb E. pose proof (K a Ha) as Ka. pose proof (K b Hb) as Kb. rewrite E in Ka.
    destruct (beam_slot ops y ns s a N R (Ib a Ha)) as (_ & _ & _ & _ & _ & A1 & A2 & A3).
    destruct (beam_slot ops y ns s b N R (Ib b Hb)) as (_ & _ & _ & _ & _ & B1 & B2 & B3). nia.
Qed.

(** How many replicas of a packet a satellite receives. *)
Lemma uplink_replicas : forall ops y ns s u, NoDup (sent_uids ops) -> net_run w rx m0 ops = Some (Ok (y, ns)) ->
  exists g, (replicas u (sat_ops s ns) <= copies (w_mac w) g u)%nat.
Proof.
  intros ops y ns s u N R. destruct (air_slots ops y ns u N R) as (_ & g & F & L & _). exists g. etransitivity; [|exact L].
  destruct (uplink_slotted ops y ns s N R) as ((_ & _ & Nd) & _). pose proof (received_beams ops y ns s R) as Ib.
  pose proof (gu_slot _ _ _ _ _ G) as Sp. unfold replicas.
  rewrite <- (map_length (fun r => slot_at s r * slot)). apply NoDup_incl_length.
  - clear -Nd Sp. induction (receptions (sat_ops s ns)) as [|r l IH]; [constructor|]. cbn [map] in Nd. inversion Nd; subst. cbn [filter].
    destruct (Z.eqb_spec (rx_uid r) u) as [E|]; [|auto]. cbn [map]. constructor; [|auto].
    intros H. apply in_map_iff in H. destruct H as (r' & E' & H'). apply filter_In in H'. destruct H' as [H' Eu]. apply Z.eqb_eq in Eu.
    apply H1. apply in_map_iff. exists r'. split; [|exact H']. f_equal; [congruence|nia].
  - intros t Ht. apply in_map_iff in Ht. destruct Ht as (r & <- & Hr). apply filter_In in Hr. destruct Hr as [Hr Eu]. apply Z.eqb_eq in Eu.
    destruct (beam_slot ops y ns s r N R (Ib r Hr)) as (_ & _ & _ & _ & A & _). rewrite Eu in A. exact A.
Qed.

(** Peeling depends on which packets meet only. *)
Lemma peels_sets : forall a b, (forall c u, In c a -> In u c -> exists c', In c' b /\ forall v, In v c' <-> In v c) -> forall u, peels a u -> peels b u.
Proof.
  intros a b H u Pu X C. apply Pu. intros c v Hc Hv Hx. destruct (H c v Hc Hv) as (c' & Hc' & E).
  apply (C c' v Hc'); [apply E; exact Hv|]. intros z Hz Nz. apply Hx; [apply E; exact Hz|exact Nz].
Qed.

Lemma in_together : forall s ns t u, In u (sent_together w s ns t) <->
  exists nt r, In nt ns /\ note_time nt = t /\ In r (beam w s nt) /\ rx_uid r = u.
Proof.
  intros. unfold sent_together, beams. rewrite in_map_iff. split.
  - intros (r & E & Hr). apply in_flat_map in Hr. destruct Hr as (nt & Hn & Hr). apply filter_In in Hn. destruct Hn as [Hn Et].
    apply Z.eqb_eq in Et. eauto 8.
  - intros (nt & r & Hn & Et & Hr & E). exists r. split; [exact E|]. apply in_flat_map. exists nt. split; [|exact Hr]. apply filter_In.
    split; [exact Hn|apply Z.eqb_eq; exact Et].
Qed.

Lemma slot_together : forall ops y ns s, NoDup (sent_uids ops) -> net_run w rx m0 ops = Some (Ok (y, ns)) ->
  travelling w s (y_queue y) = [] -> forall k v, In v (packets (in_slot (slot_at s) k (receptions (sat_ops s ns)))) <-> In v (sent_together w s ns (k * slot)).
Proof.
  intros ops y ns s N R Q. pose proof (flow_run w rx m0 P s ops y ns R) as F. unfold flow in F. rewrite Q, app_nil_r in F.
  pose proof (gu_slot _ _ _ _ _ G) as Sp.
  intros k v. rewrite in_together. unfold packets, in_slot. rewrite in_map_iff. split.
    - intros (r & Eu & Hr). apply filter_In in Hr. destruct Hr as [Hr Ek]. apply Z.eqb_eq in Ek. apply (Permutation_in _ F) in Hr.
      destruct (beam_slot ops y ns s r N R Hr) as (nt & Hn & Hb & Et & _). exists nt, r. rewrite <- Ek. auto.
    - intros (nt & r & Hn & Et & Hb & Eu). exists r. split; [exact Eu|]. apply filter_In.
      assert (Hr : In r (beams w s ns)) by (apply in_flat_map; eauto). split; [apply (Permutation_in _ (Permutation_sym F)); exact Hr|].
      apply Z.eqb_eq. destruct (beam_in _ _ _ _ Hb) as (t & g & k' & u' & tag & -> & Eu' & Es & Ee & _). cbn [note_time] in Et.
      unfold slot_at. symmetry. pose proof (gu_delay _ _ _ _ _ G t g s) as D. destruct (gu_fit _ _ _ _ _ G g u') as [F1 F2].
      pose proof (proj1 P (w_rate w g) u') as Tp.
      apply (Z.div_unique _ _ _ (w_delay w t g s - base s)); [left; lia|]. rewrite Es, Et. ring.
Qed.

Lemma meetings_slots : forall ops y ns s u, NoDup (sent_uids ops) -> net_run w rx m0 ops = Some (Ok (y, ns)) ->
  travelling w s (y_queue y) = [] -> peels (slot_contents (slot_at s) (receptions (sat_ops s ns))) u <-> peels (meetings w s ns) u.
Proof.
  intros ops y ns s u N R Q. pose proof (slot_together ops y ns s N R Q) as S. pose proof (gu_slot _ _ _ _ _ G) as Sp.
  pose proof (flow_run w rx m0 P s ops y ns R) as F. unfold flow in F. rewrite Q, app_nil_r in F.
  split; apply peels_sets.
  - intros c v Hc Hv. unfold slot_contents in Hc. apply in_map_iff in Hc. destruct Hc as (k & <- & Hk).
    exists (sent_together w s ns (k * slot)). split; [|intros z; symmetry; apply S].
    unfold meetings. apply in_map. apply S in Hv. apply in_together in Hv. destruct Hv as (nt & r & Hn & <- & _). apply in_map. exact Hn.
  - intros c v Hc Hv. unfold meetings in Hc. apply in_map_iff in Hc. destruct Hc as (t & <- & Ht).
    pose proof Hv as Hv'. apply in_together in Hv'. destruct Hv' as (nt & r & Hn & Et & Hb & Eu).
    assert (Hr : In r (beams w s ns)) by (apply in_flat_map; eauto).
    assert (Es : note_time nt = slot_at s r * slot).
    { destruct (beam_in _ _ _ _ Hb) as (t' & g & k' & u' & tag & -> & Eu' & Es & Ee & _). cbn [note_time] in *.
      destruct (air_slots ops y ns u' N R) as (_ & g' & Fr & _ & Sl). destruct (Sl t' (in_air _ _ _ _ _ _ Hn)) as (z & Ez & _).
      pose proof (gu_delay _ _ _ _ _ G t' g s) as D. destruct (gu_fit _ _ _ _ _ G g u') as [F1 F2]. pose proof (proj1 P (w_rate w g) u') as Tp.
      rewrite Ez. f_equal. unfold slot_at. apply (Z.div_unique _ _ _ (w_delay w t' g s - base s)); [left; lia|]. rewrite Es, Ez. ring. }
    rewrite Et in Es. subst t. rewrite Es in *.
    exists (packets (in_slot (slot_at s) (slot_at s r) (receptions (sat_ops s ns)))). split; [|intros z; apply S].
    unfold slot_contents. apply in_map_iff. eexists. split; [reflexivity|]. apply in_slots_used. exists r. split; [|reflexivity].
    apply (Permutation_in _ (Permutation_sym F)). exact Hr.
Qed.
End Guarded.
