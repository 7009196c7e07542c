(** When CRDSA passes packets up. *)
From Coq Require Import ZArith List Lia Bool Arith Permutation.
From Verif Require Import Base SatAddrModel ConstellationModel DeviceModel DeviceSpec DeviceProofs DeviceCopies RxModel RxSpec RxProofs AlohaModel CrdsaModel CrdsaSpec CrdsaProofs CrdsaRun CrdsaSafe
  ChannelModel SystemModel SystemSpec SystemProofs SystemProps UplinkSpec UplinkProofs PeelSpec PeelProofs SlotSpec SlotProofs CrdsaNetSpec CrdsaNetProofs DelaySpec UpDelaySpec UpDelayProofs.
Import ListNotations.
Open Scope Z_scope.

Section Aired.
Context {M : Type}.
Variable w : network.
Variable rx : mac_rx M.
Variable m0 : M.
Hypothesis P : proper w.
Hypothesis Em : w_mac w <> TxNone.
Local Notation ground_call := (@ground_call (w_host w) (w_con w) (w_tx w) (w_rate w) (w_delay w) (w_loss w) (w_success w) (w_addr w) (w_fits w) (w_mac w) M).
Local Notation hand_over := (@hand_over (w_host w) (w_con w) (w_tx w) (w_rate w) (w_delay w) (w_loss w) (w_success w) (w_addr w) (w_fits w) (w_mac w) M).
Local Notation y_step := (@y_step (w_host w) (w_con w) (w_tx w) (w_rate w) (w_delay w) (w_loss w) (w_success w) (w_addr w) (w_fits w) (w_mac w) M rx).
Local Notation sys := (@sys M).

Lemma call_no_air : forall u (y : sys) t g o y' ns', ends_job (y_ground y g) o -> ground_call y t g o = Ok (y', ns') -> on_air_at u ns' = [].
Proof.
  intros u y t g o y' ns' En H. unfold SystemModel.ground_call, on_ground in H.
  destruct (g_step (w_fits w g) (copies (w_mac w) g) (y_ground y g) o) as [[[d ev]| | |]|] eqn:St; cbn [rbind] in H; try discriminate.
  destruct (step_jobs _ _ _ _ _ _ St En) as [Na _].
  assert (E : on_air_at u [NGround t g o ev] = []).
  { cbn. rewrite app_nil_r. pose proof (no_airs _ Na u) as Nu. clear -Nu. induction ev as [|e ev IH]; [reflexivity|]. cbn [flat_map].
    rewrite IH by (intros tag X; apply (Nu tag); right; exact X). rewrite app_nil_r. destruct e as [| | |v tag|]; try reflexivity.
    destruct (Z.eqb_spec v u) as [->|]; [|reflexivity]. exfalso. apply (Nu tag). left; reflexivity. }
  destruct (to_mac ev) as [v|].
  - destruct (hand_over _ t g v) as [[y2 n2]| | |] eqn:Ho in H; cbn [rbind] in H; try discriminate. injection H as <- <-.
    assert (n2 = []); [|subst; exact E]. unfold SystemModel.hand_over in Ho. destruct (find_tag v _) as [tag|]; [|discriminate].
    destruct (w_mac w); [congruence| |]; destruct (air_times _ t g v) as [l| | |]; cbn [rbind] in Ho; try discriminate; injection Ho as _ <-; reflexivity.
  - injection H as <- <-. exact E.
Qed.

(** What goes on the air was due. *)
Lemma new_air : forall ops y ns o y' ms u t, net_run w rx m0 ops = Some (Ok (y, ns)) -> y_step y o = Some (Ok (y', ms)) -> In t (on_air_at u ms) ->
  exists g j q, y_queue y = (t, VAir g j) :: q /\ job_uid j = u.
Proof.
  intros ops y ns o y' ms u t0 R H Ht. destruct P as (P1 & P2 & P3 & P4). unfold net_run in R.
  pose proof (y_run_inv _ _ _ _ _ _ _ _ _ _ _ _ _ _ P1 P2 P3 _ _ _ R) as I.
  assert (CA : forall t g o, match o with GMac _ => False | _ => True end ->
    call_at (w_host w) (w_con w) (w_tx w) (w_rate w) (w_delay w) (w_loss w) (w_success w) (w_addr w) (w_fits w) (w_mac w) y t g o
      = Some (Ok (y', ms)) -> on_air_at u ms = []).
  { intros t g o0 No H0. unfold call_at in H0. destruct (_ && _); [|discriminate]. apply some_inj in H0.
    eapply call_no_air; [|exact H0]. destruct o0; try exact Logic.I; contradiction. }
  destruct o as [t g v p|t g a|t g p|]; cbn [SystemModel.y_step] in H; try (erewrite CA in Ht; [destruct Ht| |exact H]; exact Logic.I).
  clear CA. destruct (y_queue y) as [|[t e] q] eqn:Q; [discriminate|]. apply some_inj in H.
  pose proof (yi_events _ _ _ _ _ _ _ _ _ _ _ _ _ _ _ _ I) as Ev. rewrite Q in Ev. apply Forall_inv in Ev. unfold event_ok in Ev. cbn [snd fst] in Ev.
  destruct e as [g j|g j|s' v r src proto pow|s' r src proto].
  - destruct (go_air_cases _ _ _ _ _ _ _ _ _ _ _ _ _ _ _ _ H Ev) as (k & d & s' & _ & _ & G & Ca). cbn zeta in Ca.
    assert (X : t0 = t /\ job_uid j = u).
    { destruct Ca as [(_ & -> & _)|(_ & -> & _)]; cbn in Ht; (destruct (Z.eqb_spec (job_uid j) u); [|destruct Ht]); cbn in Ht; intuition. }
    destruct X as (-> & Eu). eauto.
  - destruct (job_index j (g_mac (y_ground y g))) as [n|] eqn:K; [|discriminate].
    erewrite (call_no_air u (mkSys t q (y_ground y) (y_mac y) (y_calls y))) in Ht; [destruct Ht| |exact H].
    exists j. cbn [y_ground]. split; [apply job_index_nth; exact K|exact Ev].
  - injection H as <- <-. destruct Ht.
  - unfold finish in H. cbn [y_mac] in H. destruct (mac_finish rx (y_mac y s') r) as [[m up]| | |] eqn:Fi; cbn [rbind] in H; try discriminate.
    injection H as <- <-. exfalso. cbn in Ht. clear - Ht. induction up as [|x l IH]; [destruct Ht|auto].
Qed.

Variables sl E : Z.
Hypothesis sl_pos : 0 < sl.
Hypothesis E_pos : 0 <= E.
Hypothesis frames : in_frames (w_mac w) sl E.
Variable n : nat.
Variables T D : Z.
Hypothesis tx_max : forall r u, w_tx w r u <= T.
Hypothesis delay_max : forall t g s, w_delay w t g s <= D.
Hypothesis room : forall g, holds_up_to n (w_fits w g).

(** A packet on the air is in a frame that begins in time. *)
Lemma aired_in_time : forall ops y ns, NoDup (sent_uids ops) -> net_run w rx m0 ops = Some (Ok (y, ns)) -> forall u ta, In ta (on_air_at u ns) ->
  exists f, whole_slots sl f = f /\ f <= ta <= f + E /\ late sl E n T ns u f 0.
Proof.
  induction ops as [|o ops IH] using rev_ind; intros y ns N R u ta H.
  - cbn in R. injection R as <- <-. destruct H.
  - unfold net_run in R. apply y_run_snoc in R. destruct R as (y1 & n1 & n2 & R1 & R2 & ->). unfold sent_uids in N. rewrite flat_map_app in N. apply nodup_parts in N. destruct N as (N & _).
    rewrite on_air_app in H. apply in_app_or in H. destruct H as [H|H].
    + destruct (IH y1 n1 N R1 u ta H) as (f & F1 & F2 & F3). exists f. split; [exact F1|]. split; [exact F2|apply late_app, F3].
    + destruct (new_air ops y1 n1 o y n2 u ta R1 R2 H) as (g & j & q & Q & <-). pose proof P as (P1 & P2 & P3 & P4).
      pose proof (run_timed _ _ _ _ _ _ _ _ _ _ rx _ _ _ P1 P2 P3 P4 sl E sl_pos E_pos frames n T D tx_max delay_max room ops y1 n1 N R1) as A.
      unfold all_timed in A. rewrite Q in A. inversion A as [|? ? Tm _]. cbn [timed snd fst] in Tm. destruct Tm as (_ & f & F1 & F2 & F3 & _).
      exists f. split; [exact F1|]. split; [exact F2|apply late_app, F3].
Qed.
End Aired.

Section Passed.
Variable w : network.
Variable slot : Z.
Variable per : nat.
Variable base : nat -> Z.
Variable spread : Z.
Variable below : Z -> Z -> bool.
Variable two garbage : Z.
Hypothesis P : proper w.
Hypothesis G : guarded w slot per base spread.
Hypothesis NC : forall p i, 0 < i -> below p i = true.
Hypothesis Mem : slot * Z.of_nat per <= two.
Local Notation rx := (crdsa_mac below two).
Local Notation m0 := (crdsa_init garbage).

(** Packets are passed up when a reception in their own frame ends. *)
Lemma passed_in_frame : forall ops y ns tm s u src proto, NoDup (sent_uids ops) -> net_run w rx m0 ops = Some (Ok (y, ns)) -> In (NUp tm s u src proto) ns ->
  exists ops1 y1 n1 n2 x, NoDup (sent_uids ops1) /\ net_run w rx m0 ops1 = Some (Ok (y1, n1)) /\ ns = n1 ++ n2 /\ In x (receptions (sat_ops s n1)) /\ rx_end x = tm /\
    frame_of slot per n1 (rx_uid x) = frame_of slot per n1 u /\ exists b, In b (receptions (sat_ops s n1)) /\ rx_uid b = u.
Proof.
  induction ops as [|o ops IH] using rev_ind; intros y ns tm s u src proto N R H.
  - cbn in R. injection R as <- <-. destruct H.
  - pose proof R as R0. unfold net_run in R. apply y_run_snoc in R. destruct R as (y1 & n1 & n2 & R1 & R2 & ->). pose proof N as N0. unfold sent_uids in N. rewrite flat_map_app in N. apply nodup_parts in N. destruct N as (N & _).
    apply in_app_or in H. destruct H as [H|H].
    + destruct (IH y1 n1 tm s u src proto N R1 H) as (ops1 & z & n3 & n4 & x & A1 & A2 & -> & A4). exists ops1, z, n3, (n4 ++ n2), x. rewrite <- app_assoc. auto.
    + pose proof P as (P1 & P2 & P3 & P4). pose proof (y_run_inv _ _ _ _ _ _ _ _ _ _ _ _ _ _ P1 P2 P3 _ _ _ R1) as I.
      destruct (step_no_up _ _ _ _ _ _ _ _ _ _ _ _ _ _ P3 _ _ _ _ _ I R2) as [K|(t & s' & r & src' & proto' & q & m & up & _ & Q & Fi & E2 & E3)].
      { rewrite Forall_forall in K. destruct (K _ H). }
      assert (Hv : tm = t /\ s = s' /\ In u up).
      { rewrite E2 in H. destruct H as [H|H]; [discriminate|]. apply in_map_iff in H. destruct H as (v & X & Hv). injection X as <- <- <- _ _. auto. }
      destruct Hv as (-> & -> & Hv).
      pose proof (yi_sat _ _ _ _ _ _ _ _ _ _ _ _ _ _ _ _ I s') as (st & Rs & Ms & Ps & _ & _). rewrite Q, pend_cons in Ps. cbn [finish_of] in Ps. rewrite Nat.eqb_refl in Ps.
      assert (So : sat_ops s' (n1 ++ n2) = sat_ops s' n1 ++ [OFinish]).
      { rewrite sat_ops_app, E2. f_equal. cbn. rewrite Nat.eqb_refl. f_equal. clear. induction up; auto. }
      assert (Rs2 : rx_run rx (rx_init m0) (sat_ops s' n1 ++ [OFinish]) = Some (Ok (mkSt (rx_end r) m (pend s' q) (st_log st ++ [(r, up)])))).
      { rewrite rx_run_app, Rs. cbn [rx_run rx_step]. rewrite Ps, Ms, Fi. reflexivity. }
      pose proof (uplink_slotted w _ _ slot per base spread P G _ _ _ s' N0 R0) as (Sl & Sa & Po).
      pose proof (uplink_frames w _ _ slot per base spread P G _ _ _ s' two N0 R0 Mem) as Fr.
      rewrite <- So in Rs2. pose proof (slots_hold (slot_at slot base s') _ _ _ _ Rs2 Sa Sl) as [I1 I2 _ _ _ _].
      pose proof (slots_framed (slot_at slot base s') _ _ two (frame_of slot per (n1 ++ n2)) _ _ Rs2 Sa Sl Fr) as Fd.
      pose proof (peel_holds below two garbage (frame_of slot per (n1 ++ n2)) NC _ _ Rs2 Sa I1 I2 Po Fd) as [_ J2 _ _ _ J6 _ J8 _].
      assert (Hl : In (r, up) (st_log st ++ [(r, up)])) by (apply in_or_app; right; left; reflexivity).
      destruct (J6 r up u Hl Hv) as (B1 & B2 & _).
      exists (ops ++ [o]), y, (n1 ++ n2), [], r. split; [exact N0|]. split; [exact R0|]. split; [rewrite app_nil_r; reflexivity|]. split; [exact B1|]. split.
      { pose proof (yi_events _ _ _ _ _ _ _ _ _ _ _ _ _ _ _ _ I) as Ev. rewrite Q in Ev. inversion Ev as [|? ? X _]. destruct X as (X & _). cbn in X. congruence. }
      split; [exact B2|].
      assert (Pl : peels (collisions_of (sat_ops s' (n1 ++ n2))) u) by (apply J2; unfold ups_log; apply in_flat_map; exists (r, up); auto).
      apply (Pl (fun v => exists b, In b (receptions (sat_ops s' (n1 ++ n2))) /\ rx_uid b = v)). intros c v Hc Hcv _. unfold collisions_of in Hc. apply in_map_iff in Hc. destruct Hc as (p & <- & Hp).
      unfold packets in Hcv. apply in_map_iff in Hcv. destruct Hcv as (b & <- & Hb). exists b. split; [exact (J8 p b Hp Hb)|reflexivity].
Qed.

Variable n : nat.
Variables T D : Z.
Local Notation F := (slot * Z.of_nat per).
Hypothesis fr : in_frames (w_mac w) F (F - slot).
Hypothesis tx_max : forall r u, w_tx w r u <= T.
Hypothesis delay_max : forall t g s, w_delay w t g s <= D.
Hypothesis room : forall g, holds_up_to n (w_fits w g).

Lemma per_pos : (0 < per)%nat.
Proof. clear - G. pose proof (gu_mac _ _ _ _ _ G) as Gm. destruct (w_mac w) as [|d|d sl rp]; [contradiction|destruct Gm; lia|]. destruct Gm as [_ Gm]. destruct (Gm 0%nat 0). lia. Qed.

Lemma passed_in_time : forall ops y ns, NoDup (sent_uids ops) -> net_run w rx m0 ops = Some (Ok (y, ns)) ->
  up_within (F - 1 + Z.of_nat n * whole_slots F (F - slot + T) + (F - slot) + T + D) y ns.
Proof.
  intros ops y ns N R t g u Ac. pose proof P as (P1 & P2 & P3 & P4). pose proof (gu_slot _ _ _ _ _ G) as Sp. pose proof per_pos as Pp.
  assert (Fp : 0 < F) by nia. assert (Ep : 0 <= F - slot) by nia. split.
  - intros U. pose proof (run_over _ _ _ _ _ _ _ _ _ _ rx _ _ _ P1 P2 P3 P4 F (F - slot) Fp Ep fr n T D tx_max delay_max room ops y ns N R t g u Ac U). lia.
  - intros tm s src proto H. destruct (passed_in_frame ops y ns tm s u src proto N R H) as (ops1 & y1 & n1 & n2 & x & N1 & R1 & -> & Hx & <- & Fx & b & Hb & Eb).
    assert (Em : w_mac w <> TxNone) by (intros E; pose proof (gu_mac _ _ _ _ _ G) as Gm; rewrite E in Gm; exact Gm).
    pose proof (received_beams w _ _ P ops1 y1 n1 s R1) as Ib.
    destruct (beam_slot w _ _ slot per base spread P G ops1 y1 n1 s b N1 R1 (Ib b Hb)) as (_ & _ & _ & _ & Ab & _). rewrite Eb in Ab.
    destruct (beam_slot w _ _ slot per base spread P G ops1 y1 n1 s x N1 R1 (Ib x Hx)) as (nt & _ & Hn & Et & Ax & _).
    pose proof (frame_of_slot w _ _ slot per base spread P G ops1 y1 n1 _ _ N1 R1 Ab Pp) as Kb.
    pose proof (frame_of_slot w _ _ slot per base spread P G ops1 y1 n1 _ _ N1 R1 Ax Pp) as Kx. rewrite Fx in Kx.
    destruct (aired_in_time w _ _ P Em F (F - slot) Fp Ep fr n T D tx_max delay_max room ops1 y1 n1 N1 R1 u _ Ab) as (f & F1 & F2 & La).
    pose proof (late_app F (F - slot) n T n1 n2 _ _ _ La) as La'.
    destruct (late_own _ _ _ _ _ _ _ _ _ _ rx _ _ _ P1 P2 P3 F (F - slot) n T ops y (n1 ++ n2) t g u N R Ac) as (_ & Own). apply Own in La'.
    destruct (beam_in _ _ _ _ Hn) as (ta & g' & k & v & tag & -> & Ev & Es & Ee & _). cbn [note_time] in Et. rewrite <- Et in *.
    pose proof (P1 (w_rate w g') v). pose proof (tx_max (w_rate w g') v). pose proof (P2 ta g' s). pose proof (delay_max ta g' s).
    set (fo := frame_of slot per n1 u) in *. assert (Ef : f = fo * F).
    { unfold whole_slots in F1. set (c := - (- f / F)) in *. assert (c = fo) by nia. nia. }
    rewrite Ee, Es. rewrite Ef in La'. assert (fo * F <= ta <= fo * F + (F - slot)) by (rewrite Et; nia). lia.
Qed.
End Passed.
