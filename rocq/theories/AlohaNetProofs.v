(** Aloha frames at the satellite. *)
From Coq Require Import ZArith List Lia Bool Arith Permutation Sorting.Sorted.
From Verif Require Import Base SatAddrModel ConstellationModel DeviceModel DeviceSpec DeviceProofs DeviceProps DeviceCopies
  RxModel RxSpec RxProofs AlohaModel AlohaSpec AlohaProofs AlohaProps CrdsaModel
  ChannelModel SystemModel SystemSpec SystemProofs SystemMacs SystemProps UplinkSpec UplinkProofs
  SlotSpec SlotProofs CrdsaNetSpec CrdsaNetProofs AlohaNetSpec.
Import ListNotations.
Open Scope Z_scope.

(** Without ties the simulator finishes receptions first. *)
Lemma untied : forall M (m : mac_rx M) m0 ops s, rx_run m (rx_init m0) ops = Some (Ok s) -> sane ops ->
  (forall a b, In a (receptions ops) -> In b (receptions ops) -> rx_start a <> rx_end b) -> finish_first [] ops.
Proof.
  intros M m m0 ops s R. revert ops s R.
  apply (rx_run_ind M m (rx_init m0) (fun ops s => sane ops -> _ -> finish_first [] ops)).
  - intros _ _. exact Logic.I.
  - intros ops o s s' R IH E Sa Ti. pose proof (sane_app _ _ Sa) as Sa'. destruct (base_inv_holds _ _ _ _ _ R Sa') as (Bp & _).
    assert (F : finish_first [] ops).
    { apply IH; [exact Sa'|]. intros a b Ha Hb. rewrite receptions_app in Ti. apply Ti; apply in_or_app; auto. }
    apply (finish_first_snoc M m ops o (rx_init m0) s R F).
    destruct o as [t u x p|]; cbn [rx_step] in E; [|exact Logic.I].
    destruct ((st_now s <=? t) && forallb (fun r => t <=? rx_end r) (st_pending s)) eqn:G; [|discriminate].
    apply andb_true_iff in G. destruct G as [_ G]. rewrite forallb_forall in G. cbn [finish_first]. split; [|exact Logic.I].
    apply Forall_forall. intros r Hr. specialize (G r Hr). apply Z.leb_le in G. rewrite receptions_app in Ti.
    assert (Hr' : In r (receptions ops)) by (apply (Permutation_in _ (Permutation_sym Bp)); apply in_or_app; auto).
    specialize (Ti (mkRx u t (t + x) p) r). cbn [rx_start] in Ti.
    assert (t <> rx_end r); [|lia]. apply Ti; apply in_or_app; [right; left; reflexivity|left; exact Hr'].
Qed.

Section Single.
Context {M : Type}.
Variable w : network.
Variable rx : mac_rx M.
Variable m0 : M.
Variable slot : Z.
Hypothesis P : proper w.
Hypothesis Em : w_mac w = TxAloha slot.

Lemma one_air : forall ops y ns u, NoDup (sent_uids ops) -> net_run w rx m0 ops = Some (Ok (y, ns)) -> (length (on_air_at u ns) <= 1)%nat.
Proof.
  intros ops y ns u N R. assert (E0 : w_mac w <> TxNone) by (rewrite Em; discriminate).
  destruct (planned_run w rx m0 P E0 u ops y ns N R) as [Z|(_ & t0 & g & l & A & E)].
  - unfold all_times in Z. apply app_eq_nil in Z. destruct Z as [-> _]. cbn. lia.
  - rewrite Em in A. cbn [air_times] in A. injection A as <-. apply Permutation_length in E. unfold all_times in E. rewrite app_length in E. cbn in E. lia.
Qed.

Lemma beams_counted : forall s ns u, (count_occ Z.eq_dec (map rx_uid (beams w s ns)) u <= length (on_air_at u ns))%nat.
Proof.
  intros s ns u. induction ns as [|nt ns IH]; [cbn; lia|]. change (nt :: ns) with ([nt] ++ ns).
  rewrite beams_app, map_app, count_occ_app, on_air_app, app_length.
  assert (H : (count_occ Z.eq_dec (map rx_uid (beams w s [nt])) u <= length (on_air_at u [nt]))%nat); [|lia].
  change (beams w s [nt]) with (beam w s nt ++ []). rewrite app_nil_r. destruct (beam w s nt) as [|r l] eqn:Eb; [cbn; lia|].
  assert (Hr : In r (beam w s nt)) by (rewrite Eb; left; reflexivity). destruct (beam_in _ _ _ _ Hr) as (t & g & k & v & tag & -> & Eu & _).
  assert (l = []) by (cbn [beam] in Eb; destruct (_ && _); [injection Eb as _ <-; reflexivity|discriminate]). subst l.
  cbn. rewrite Eu. destruct (Z.eq_dec v u) as [->|Ne]; [rewrite Z.eqb_refl; cbn; lia|lia].
Qed.

Lemma beams_distinct : forall ops y ns s, NoDup (sent_uids ops) -> net_run w rx m0 ops = Some (Ok (y, ns)) -> NoDup (map rx_uid (beams w s ns)).
Proof.
  intros ops y ns s N R. apply (NoDup_count_occ Z.eq_dec). intros u. pose proof (beams_counted s ns u). pose proof (one_air ops y ns u N R). lia.
Qed.

Lemma uplink_distinct : forall ops y ns s, NoDup (sent_uids ops) -> net_run w rx m0 ops = Some (Ok (y, ns)) ->
  distinct (sat_ops s ns) /\ sane (sat_ops s ns).
Proof.
  intros ops y ns s N R. pose proof (flow_run w rx m0 P s ops y ns R) as F. split.
  - apply (Permutation_map rx_uid) in F. rewrite map_app in F. eapply perm_prefix_nodup; [exact F|]. eapply beams_distinct; eauto.
  - apply Forall_forall. intros a Ha. apply (received_beams w rx m0 P ops y ns s R) in Ha. apply in_flat_map in Ha. destruct Ha as (nt & _ & Hb).
    apply beam_in in Hb. destruct Hb as (t & g & k & u & tag & _ & _ & _ & -> & _). pose proof (proj1 P (w_rate w g) u). lia.
Qed.
End Single.

Lemma uid_inj : forall l a b, NoDup (map rx_uid l) -> In a l -> In b l -> rx_uid a = rx_uid b -> a = b.
Proof.
  induction l as [|x l IH]; intros a b N Ha Hb E; [destruct Ha|]. cbn [map] in N. inversion N as [|? ? N1 N2]; subst.
  destruct Ha as [->|Ha], Hb as [->|Hb]; auto.
  - exfalso. apply N1. rewrite E. apply in_map. exact Hb.
  - exfalso. apply N1. rewrite <- E. apply in_map. exact Ha.
Qed.
