(** Frames from the stations to the satellites: none is lost or made up on the way, and the times of the replicas. *)
From Coq Require Import ZArith List Lia Bool Arith Permutation Sorting.Sorted.
From Verif Require Import Base SatAddrModel ConstellationModel DeviceModel DeviceSpec DeviceProofs DeviceProps DeviceCopies
  RxModel RxSpec RxProofs AlohaModel CrdsaModel ChannelModel SystemModel SystemSpec SystemProofs SystemMacs SystemProps UplinkSpec.
Import ListNotations.
Open Scope Z_scope.

Lemma travelling_cons : forall w s x q, travelling w s (x :: q) = travelling w s [x] ++ travelling w s q.
Proof. intros. change (x :: q) with ([x] ++ q). apply flat_map_app. Qed.

Lemma travelling_post : forall w s t e q, Permutation (travelling w s (post t e q)) (travelling w s [(t, e)] ++ travelling w s q).
Proof.
  induction q as [|x q IH]; [rewrite app_nil_r; reflexivity|]. cbn [post]. destruct (fst x <=? t).
  2:{ rewrite (travelling_cons w s (t, e) (x :: q)). reflexivity. }
  rewrite (travelling_cons w s x (post t e q)), (travelling_cons w s x q), IH, !app_assoc. apply Permutation_app_tail. apply Permutation_app_comm.
Qed.

Lemma beams_app : forall w s a b, beams w s (a ++ b) = beams w s a ++ beams w s b.
Proof. intros. apply flat_map_app. Qed.

Lemma no_airs : forall ev, (forall u, airs u ev = 0%nat) -> forall u tag, ~ In (EAir u tag) ev.
Proof.
  intros ev Na u tag H. specialize (Na u). unfold airs in Na.
  pose proof (times_pos _ (fun e => match e with EAir v _ => v =? u | _ => false end) ev _ H (Z.eqb_refl u)). lia.
Qed.

Section Uplink.
Context {M : Type}.
Variable w : network.
Variable rx : mac_rx M.
Variable m0 : M.
Hypothesis P : proper w.
Local Notation go_air := (@go_air (w_host w) (w_con w) (w_tx w) (w_rate w) (w_delay w) (w_loss w) (w_success w) (w_addr w) (w_fits w) (w_mac w) M).
Local Notation ground_call := (@ground_call (w_host w) (w_con w) (w_tx w) (w_rate w) (w_delay w) (w_loss w) (w_success w) (w_addr w) (w_fits w) (w_mac w) M).
Local Notation hand_over := (@hand_over (w_host w) (w_con w) (w_tx w) (w_rate w) (w_delay w) (w_loss w) (w_success w) (w_addr w) (w_fits w) (w_mac w) M).
Local Notation y_step := (@y_step (w_host w) (w_con w) (w_tx w) (w_rate w) (w_delay w) (w_loss w) (w_success w) (w_addr w) (w_fits w) (w_mac w) M rx).
Local Notation sys := (@sys M).

Definition flow (s : nat) (y : sys) (ns : list note) : Prop :=
  Permutation (receptions (sat_ops s ns) ++ travelling w s (y_queue y)) (beams w s ns).

Lemma flow_go_air : forall s y ns t g j y' ns', job_on_air j = false -> flow s y ns -> go_air y t g j = Ok (y', ns') -> flow s y' (ns ++ ns').
Proof.
  intros s y ns t g j y' ns' N C H. destruct (go_air_cases _ _ _ _ _ _ _ _ _ _ _ _ _ _ _ _ H N) as (k & d & s' & _ & _ & G & Ca). cbn zeta in Ca.
  unfold flow in *. rewrite sat_ops_app, receptions_app, beams_app.
  destruct Ca as [(Su & -> & ->)|(Su & -> & ->)]; cbn [add_event set_ground y_queue].
  - cbn [sat_ops flat_map receptions app beams beam]. unfold leads_to. rewrite G, !app_nil_r.
    rewrite !travelling_post. cbn [travelling flat_map snd fst app]. rewrite app_nil_r. destruct (Nat.eqb_spec s' s) as [->|Ne].
    + rewrite Su. cbn [andb app]. rewrite <- C. rewrite <- Permutation_middle. apply Permutation_cons_append.
    + cbn [andb app]. rewrite app_nil_r. exact C.
  - cbn [sat_ops flat_map receptions app beams beam]. unfold leads_to. rewrite G, !app_nil_r.
    rewrite travelling_post. cbn [travelling flat_map snd fst app]. destruct (Nat.eqb_spec s' s) as [->|Ne].
    + rewrite Su. cbn [andb app]. rewrite app_nil_r. exact C.
    + cbn [andb app]. rewrite app_nil_r. exact C.
Qed.

Lemma flow_hand_over : forall s y ns t g v y' ns', flow s y ns -> hand_over y t g v = Ok (y', ns') -> flow s y' (ns ++ ns').
Proof.
  intros s y ns t g v y' ns' C H. unfold SystemModel.hand_over in H. destruct (find_tag v _) as [tag|]; [|discriminate].
  assert (K : forall l (y : sys), flow s y ns -> flow s (post_all (map (fun a => (a, VAir g (mkJob v tag false))) l) y) ns).
  { clear. induction l as [|a l IH]; intros y C; [exact C|]. unfold post_all. cbn [map fold_left fst snd]. apply IH.
    unfold flow in *. cbn [add_event y_queue]. rewrite travelling_post. exact C. }
  destruct (w_mac w) eqn:Em; rewrite <- Em in *.
  - eapply (flow_go_air s y ns t g (mkJob v tag false)); [reflexivity|exact C|exact H].
  - destruct (air_times (w_mac w) t g v) as [l| | |]; cbn [rbind] in H; try discriminate. injection H as <- <-. rewrite app_nil_r. auto.
  - destruct (air_times (w_mac w) t g v) as [l| | |]; cbn [rbind] in H; try discriminate. injection H as <- <-. rewrite app_nil_r. auto.
Qed.

Lemma flow_ground_call : forall s y ns t g o y' ns', ends_job (y_ground y g) o -> flow s y ns ->
  ground_call y t g o = Ok (y', ns') -> flow s y' (ns ++ ns').
Proof.
  intros s y ns t g o y' ns' En C H. unfold SystemModel.ground_call, on_ground in H.
  destruct (g_step (w_fits w g) (copies (w_mac w) g) (y_ground y g) o) as [[[d ev]| | |]|] eqn:St; cbn [rbind] in H; try discriminate.
  destruct (step_jobs _ _ _ _ _ _ St En) as [Na _].
  assert (C1 : flow s (set_ground y g d) (ns ++ [NGround t g o ev])).
  { unfold flow in *. rewrite sat_ops_app, receptions_app, beams_app. cbn [sat_ops flat_map receptions set_ground y_queue].
    assert (E : beams w s [NGround t g o ev] = []).
    { cbn. rewrite app_nil_r. destruct o; try reflexivity. destruct ev as [|[] [|]]; try reflexivity.
      exfalso. eapply (no_airs _ Na). left. reflexivity. }
    rewrite E, !app_nil_r. exact C. }
  destruct (to_mac ev) as [v|].
  - destruct (hand_over _ t g v) as [[y2 n2]| | |] eqn:Ho in H; cbn [rbind] in H; try discriminate.
    injection H as <- <-. pose proof (flow_hand_over _ _ _ _ _ _ _ _ C1 Ho) as C2. rewrite <- app_assoc in C2. exact C2.
  - injection H as <- <-. exact C1.
Qed.

Lemma flow_step : forall s ops ns y o y' ns', net_run w rx m0 ops = Some (Ok (y, ns)) -> flow s y ns -> y_step y o = Some (Ok (y', ns')) ->
  flow s y' (ns ++ ns').
Proof.
  intros s ops ns y o y' ns' R C H. destruct P as (P1 & P2 & P3 & P4). unfold net_run in R.
  pose proof (y_run_inv _ _ _ _ _ _ _ _ _ _ _ _ _ _ P1 P2 P3 _ _ _ R) as I.
  assert (CA : forall t g o, match o with GMac _ => False | _ => True end ->
    call_at (w_host w) (w_con w) (w_tx w) (w_rate w) (w_delay w) (w_loss w) (w_success w) (w_addr w) (w_fits w) (w_mac w) y t g o
      = Some (Ok (y', ns')) -> flow s y' (ns ++ ns')).
  { intros t g o0 No H0. unfold call_at in H0. destruct (_ && _); [|discriminate]. apply some_inj in H0.
    eapply flow_ground_call; [| |exact H0]; [destruct o0; try exact Logic.I; contradiction|exact C]. }
  destruct o as [t g v p|t g a|t g p|]; cbn [SystemModel.y_step] in H; try (eapply CA; [|exact H]; exact Logic.I).
  destruct (y_queue y) as [|[t e] q] eqn:Q; [discriminate|]. apply some_inj in H.
  pose proof (yi_events _ _ _ _ _ _ _ _ _ _ _ _ _ _ _ _ I) as Ev. rewrite Q in Ev. apply Forall_inv in Ev. unfold event_ok in Ev. cbn [snd fst] in Ev.
  unfold flow in C. rewrite Q in C. cbn [travelling flat_map snd fst] in C. fold (travelling w s q) in C.
  destruct e as [g j|g j|s' v r src proto pow|s' r src proto].
  - eapply flow_go_air; [exact Ev| |exact H]. exact C.
  - destruct (job_index j (g_mac (y_ground y g))) as [n|] eqn:K; [|discriminate].
    eapply flow_ground_call; [| |exact H].
    + exists j. cbn [y_ground]. split; [apply job_index_nth; exact K|exact Ev].
    + exact C.
  - injection H as <- <-. unfold flow. cbn [arrive fst snd y_queue]. rewrite sat_ops_app, receptions_app, beams_app, travelling_post.
    cbn [travelling flat_map snd fst app sat_ops beams beam]. fold (travelling w s q).
    rewrite !app_nil_r. rewrite <- C. destruct (s' =? s)%nat; cbn [receptions flat_map app]; rewrite <- app_assoc; reflexivity.
  - unfold finish in H. cbn [y_mac] in H. destruct (mac_finish rx (y_mac y s') r) as [[m up]| | |] eqn:Fi; cbn [rbind] in H; try discriminate.
    injection H as <- <-. unfold flow. cbn [y_queue]. rewrite sat_ops_app, receptions_app, beams_app.
    assert (E1 : forall (f : Z -> Z * Z) l, beams w s (map (fun v => NUp t s' v (fst (f v)) (snd (f v))) l) = []) by (induction l; auto).
    change (NSat t s' OFinish :: ?x) with ([NSat t s' OFinish] ++ x). rewrite beams_app, sat_ops_app, E1.
    rewrite (proj1 (ops_of_finish t s' up _) s). cbn [beams flat_map beam app sat_ops]. rewrite !app_nil_r.
    destruct (s' =? s)%nat; cbn [receptions flat_map]; rewrite !app_nil_r; exact C.
Qed.

(** Whatever was sent towards a satellite, and not lost, is on its way to it or was received by it: as it was sent. *)
Lemma flow_run : forall s ops y ns, net_run w rx m0 ops = Some (Ok (y, ns)) -> flow s y ns.
Proof.
  intros s. induction ops as [|o ops IH] using rev_ind; intros y ns R.
  - cbn in R. injection R as <- <-. unfold flow. cbn. constructor.
  - unfold net_run in R. apply y_run_snoc in R. destruct R as (y1 & n1 & n2 & A & B & ->).
    eapply flow_step; [exact A|apply IH; exact A|exact B].
Qed.
End Uplink.

(** ** When the replicas of a packet go out *)
Definition scheduled (u : Z) (q : list (Z * event)) : list Z :=
  flat_map (fun x => match snd x with VAir _ j => if job_uid j =? u then [fst x] else [] | _ => [] end) q.

Lemma scheduled_cons : forall u x q, scheduled u (x :: q) = scheduled u [x] ++ scheduled u q.
Proof. intros. change (x :: q) with ([x] ++ q). apply flat_map_app. Qed.
Lemma scheduled_post : forall u t e q, Permutation (scheduled u (post t e q)) (scheduled u [(t, e)] ++ scheduled u q).
Proof.
  induction q as [|x q IH]; [rewrite app_nil_r; reflexivity|]. cbn [post]. destruct (fst x <=? t).
  2:{ rewrite (scheduled_cons u (t, e) (x :: q)). reflexivity. }
  rewrite (scheduled_cons u x (post t e q)), (scheduled_cons u x q), IH, !app_assoc. apply Permutation_app_tail. apply Permutation_app_comm.
Qed.
Lemma on_air_app : forall u a b, on_air_at u (a ++ b) = on_air_at u a ++ on_air_at u b.
Proof. intros. apply flat_map_app. Qed.

Lemma one_sender : forall ns u g g', NoDup (flat_map sent_by ns) -> In u (sends (station_ops g ns)) -> In u (sends (station_ops g' ns)) -> g = g'.
Proof.
  assert (K : forall ns u g, In u (sends (station_ops g ns)) -> exists n1 t p ev n2, ns = n1 ++ NGround t g (GSend u p) ev :: n2).
  { intros ns u g Hs. apply in_flat_map in Hs. destruct Hs as (o & Ho & Hu). destruct o as [v q| | |]; cbn in Hu; try tauto. destruct Hu as [->|[]].
    apply in_split in Ho. destruct Ho as (l1 & l2 & El). destruct (station_split _ _ _ _ _ El) as (n1 & t' & ev & n2 & E1 & _). eauto 10. }
  intros ns u g g' N H H'. destruct (K _ _ _ H) as (n1 & t & p & ev & n2 & E). destruct (K _ _ _ H') as (n1' & t' & p' & ev' & n2' & E').
  destruct (unique_split _ _ sent_by ns _ _ _ _ _ _ u N E E') as (_ & X & _); [left; reflexivity|left; reflexivity|].
  injection X as _ Eg _ _. congruence.
Qed.

Lemma handed_app : forall a b, handed (a ++ b) = handed a ++ handed b.
Proof. intros. apply flat_map_app. Qed.
Lemma in_all_handed : forall u ns, In u (handed (all_events ns)) <-> exists g, In u (handed (station_events g ns)).
Proof.
  intros u. induction ns as [|n ns IH]; [split; [intros []|intros (g & [])]|].
  change (n :: ns) with ([n] ++ ns). rewrite all_events_app, handed_app, in_app_iff, IH. split.
  - intros [H|(g & H)].
    + destruct n as [t g o ev| | |]; try destruct H. exists g. rewrite station_events_app, handed_app, in_app_iff. left.
      cbn in *. rewrite Nat.eqb_refl. exact H.
    + exists g. rewrite station_events_app, handed_app, in_app_iff. auto.
  - intros (g & H). rewrite station_events_app, handed_app, in_app_iff in H. destruct H as [H|H]; [left|right; eauto].
    destruct n as [t g' o ev| | |]; try destruct H. cbn in *. destruct (g' =? g)%nat; [exact H|destruct H].
Qed.

Section Plan.
Context {M : Type}.
Variable w : network.
Variable rx : mac_rx M.
Variable m0 : M.
Hypothesis P : proper w.
Hypothesis Em : w_mac w <> TxNone.
Local Notation go_air := (@go_air (w_host w) (w_con w) (w_tx w) (w_rate w) (w_delay w) (w_loss w) (w_success w) (w_addr w) (w_fits w) (w_mac w) M).
Local Notation ground_call := (@ground_call (w_host w) (w_con w) (w_tx w) (w_rate w) (w_delay w) (w_loss w) (w_success w) (w_addr w) (w_fits w) (w_mac w) M).
Local Notation hand_over := (@hand_over (w_host w) (w_con w) (w_tx w) (w_rate w) (w_delay w) (w_loss w) (w_success w) (w_addr w) (w_fits w) (w_mac w) M).
Local Notation y_step := (@y_step (w_host w) (w_con w) (w_tx w) (w_rate w) (w_delay w) (w_loss w) (w_success w) (w_addr w) (w_fits w) (w_mac w) M rx).
Local Notation sys := (@sys M).

Definition all_times (u : Z) (y : sys) (ns : list note) : list Z := on_air_at u ns ++ scheduled u (y_queue y).

Definition planned (u : Z) (y : sys) (ns : list note) : Prop :=
  all_times u y ns = [] \/
  In u (handed (all_events ns)) /\ exists t g l, air_times (w_mac w) t g u = Ok l /\ Permutation (all_times u y ns) l.

Lemma planned_same : forall u y ns y' ns', planned u y ns -> Permutation (all_times u y' (ns ++ ns')) (all_times u y ns) -> planned u y' (ns ++ ns').
Proof.
  intros u y ns y' ns' [Z|(H & t & g & l & A & E)] S.
  - left. rewrite Z in S. apply Permutation_nil. apply Permutation_sym. exact S.
  - right. split; [rewrite all_events_app, handed_app; apply in_or_app; auto|]. exists t, g, l. split; [exact A|]. rewrite S. exact E.
Qed.

Lemma planned_hand_over : forall u y ns t g v y' ns', (v = u -> all_times u y ns = []) -> (u = v -> In v (handed (all_events ns))) ->
  planned u y ns -> hand_over y t g v = Ok (y', ns') -> planned u y' (ns ++ ns').
Proof.
  intros u y ns t g v y' ns' Fr Hd C H. unfold SystemModel.hand_over in H. destruct (find_tag v _) as [tag|]; [|discriminate].
  assert (H' : (do l <- air_times (w_mac w) t g v ; Ok (post_all (map (fun a => (a, VAir g (mkJob v tag false))) l) y, @nil note)) = Ok (y', ns'))
    by (destruct (w_mac w); [congruence|exact H|exact H]).
  clear H. rename H' into H.
  destruct (air_times (w_mac w) t g v) as [l| | |] eqn:A; cbn [rbind] in H; try discriminate. injection H as <- <-.
  rewrite app_nil_r.
  assert (K : forall l (y : sys), Permutation (all_times u (post_all (map (fun a => (a, VAir g (mkJob v tag false))) l) y) ns)
                                    (all_times u y ns ++ if v =? u then l else [])).
  { clear. induction l as [|a l IH]; intros y; [destruct (v =? u); rewrite app_nil_r; reflexivity|].
    unfold post_all in *. cbn [map fold_left fst snd]. rewrite IH. unfold all_times. cbn [add_event y_queue]. rewrite scheduled_post.
    cbn [scheduled flat_map snd fst job_uid]. destruct (v =? u); [|rewrite !app_nil_r; reflexivity]. cbn [app].
    rewrite <- !app_assoc. apply Permutation_app_head. cbn [app]. apply Permutation_middle. }
  destruct (Z.eqb_spec v u) as [->|Ne].
  - right. split; [apply Hd; reflexivity|]. exists t, g, l. split; [exact A|]. rewrite K, Fr by reflexivity. reflexivity.
  - specialize (K l y). rewrite app_nil_r in K. rewrite <- (app_nil_r ns). eapply planned_same; [exact C|]. rewrite app_nil_r. exact K.
Qed.

Lemma to_mac_handed : forall ev v, to_mac ev = Some v -> In v (handed ev).
Proof.
  intros ev v H. unfold to_mac in H. unfold handed. destruct (flat_map _ ev) as [|x l]; [discriminate|]. injection H as ->. left; reflexivity.
Qed.

Lemma planned_ground_call : forall u y ns t g o y' ns', ends_job (y_ground y g) o -> planned u y ns ->
  (NoDup (handed (all_events (ns ++ ns')))) -> ground_call y t g o = Ok (y', ns') -> planned u y' (ns ++ ns').
Proof.
  intros u y ns t g o y' ns' En C Nd H. unfold SystemModel.ground_call, on_ground in H.
  destruct (g_step (w_fits w g) (copies (w_mac w) g) (y_ground y g) o) as [[[d ev]| | |]|] eqn:St; cbn [rbind] in H; try discriminate.
  destruct (step_jobs _ _ _ _ _ _ St En) as [Na _].
  assert (E : on_air_at u [NGround t g o ev] = []).
  { cbn. rewrite app_nil_r. pose proof (no_airs _ Na u) as Nu. clear -Nu. induction ev as [|e ev IH]; [reflexivity|]. cbn [flat_map].
    rewrite IH by (intros tag X; apply (Nu tag); right; exact X). rewrite app_nil_r. destruct e as [| | |v tag|]; try reflexivity.
    destruct (Z.eqb_spec v u) as [->|]; [|reflexivity]. exfalso. apply (Nu tag). left; reflexivity. }
  assert (T : all_times u (set_ground y g d) (ns ++ [NGround t g o ev]) = all_times u y ns).
  { unfold all_times. rewrite on_air_app, E, app_nil_r. reflexivity. }
  assert (C1 : planned u (set_ground y g d) (ns ++ [NGround t g o ev])) by (eapply planned_same; [exact C|rewrite T; reflexivity]).
  destruct (to_mac ev) as [v|] eqn:Tm.
  - destruct (hand_over _ t g v) as [[y2 n2]| | |] eqn:Ho in H; cbn [rbind] in H; try discriminate.
    injection H as <- <-. apply to_mac_handed in Tm.
    assert (C2 : planned u y2 ((ns ++ [NGround t g o ev]) ++ n2)).
    { eapply planned_hand_over; [| |exact C1|exact Ho].
      - intros ->. rewrite T. destruct C as [C|(Hu & _)]; [exact C|]. exfalso.
        change (NGround t g o ev :: n2) with ([NGround t g o ev] ++ n2) in Nd. rewrite all_events_app, handed_app in Nd.
        eapply nodup_app_disj; [exact Nd|exact Hu|]. rewrite all_events_app, handed_app. apply in_or_app. left. cbn. rewrite app_nil_r. exact Tm.
      - intros ->. rewrite all_events_app, handed_app. apply in_or_app. right. cbn. rewrite app_nil_r. exact Tm. }
    rewrite <- app_assoc in C2. exact C2.
  - injection H as <- <-. exact C1.
Qed.

Lemma handed_once : forall ops y ns, NoDup (sent_uids ops) -> net_run w rx m0 ops = Some (Ok (y, ns)) -> NoDup (handed (all_events ns)).
Proof.
  intros ops y ns N R. destruct P as (P1 & P2 & P3 & P4). unfold net_run in R.
  assert (Nn : NoDup (flat_map sent_by ns)) by (rewrite <- sent_happened, (run_happened _ _ _ _ _ _ _ _ _ _ _ _ _ _ P1 P2 P3 _ _ _ R), sent_asked; exact N).
  assert (Hg : forall g, NoDup (handed (station_events g ns)) /\ incl (handed (station_events g ns)) (sends (station_ops g ns))).
  { intros g. pose proof (station_inv _ _ _ _ _ _ _ _ _ _ _ _ _ _ P1 P2 P3 P4 _ _ _ g N R) as C.
    pose proof (ci_nodup _ _ _ _ C) as Nd. rewrite (ci_fifo _ _ _ _ C) in Nd. split; [eapply nodup_app_l; exact Nd|].
    intros u Hu. apply (ci_sub _ _ _ _ C). rewrite (ci_fifo _ _ _ _ C). apply in_or_app; auto. }
  assert (G : forall g g' u, In u (handed (station_events g ns)) -> In u (handed (station_events g' ns)) -> g = g').
  { intros g g' u H H'. eapply one_sender; [exact Nn|apply (proj2 (Hg g)); exact H|apply (proj2 (Hg g')); exact H']. }
  assert (K : forall g, NoDup (handed (station_events g ns))) by (intros; apply Hg). clear -G K.
  induction ns as [|n ns IH]; [constructor|]. change (n :: ns) with ([n] ++ ns) in *.
  assert (IH' : NoDup (handed (all_events ns))).
  { apply IH.
    - intros g g' u H H'. apply (G g g' u); rewrite station_events_app, handed_app; apply in_or_app; auto.
    - intros g. specialize (K g). rewrite station_events_app, handed_app in K. clear -K. induction (handed _) as [|x l IHl]; [exact K|].
      cbn [app] in K. inversion K; auto. }
  rewrite all_events_app, handed_app. destruct n as [t g o ev| | |]; try exact IH'.
  assert (E : station_events g [NGround t g o ev] = all_events [NGround t g o ev]) by (cbn; rewrite Nat.eqb_refl; reflexivity).
  pose proof (K g) as Kg. rewrite station_events_app, handed_app, E in Kg.
  assert (D : forall u, In u (handed (all_events [NGround t g o ev])) -> ~ In u (handed (all_events ns))).
  { intros u H H'. apply in_all_handed in H'. destruct H' as (g' & H').
    assert (g = g').
    { apply (G g g' u); rewrite station_events_app, handed_app; apply in_or_app; [left; rewrite E; exact H|right; exact H']. }
    subst g'. eapply nodup_app_disj; [exact Kg|exact H|exact H']. }
  apply nodup_app_l in Kg. revert Kg D. generalize (handed (all_events [NGround t g o ev])). intros l Nl D.
  induction Nl as [|x l Nx Nl IHl]; [exact IH'|]. cbn [app]. constructor.
  - intros H. apply in_app_iff in H. destruct H as [H|H]; [contradiction|]. apply (D x); [left; reflexivity|exact H].
  - apply IHl. intros u Hu. apply D. right; exact Hu.
Qed.

Lemma planned_step : forall u ops ns y o y' ns', net_run w rx m0 ops = Some (Ok (y, ns)) -> NoDup (handed (all_events (ns ++ ns'))) ->
  planned u y ns -> y_step y o = Some (Ok (y', ns')) -> planned u y' (ns ++ ns').
Proof.
  intros u ops ns y o y' ns' R Nd C H. destruct P as (P1 & P2 & P3 & P4). unfold net_run in R.
  pose proof (y_run_inv _ _ _ _ _ _ _ _ _ _ _ _ _ _ P1 P2 P3 _ _ _ R) as I.
  assert (CA : forall t g o, match o with GMac _ => False | _ => True end ->
    call_at (w_host w) (w_con w) (w_tx w) (w_rate w) (w_delay w) (w_loss w) (w_success w) (w_addr w) (w_fits w) (w_mac w) y t g o
      = Some (Ok (y', ns')) -> planned u y' (ns ++ ns')).
  { intros t g o0 No H0. unfold call_at in H0. destruct (_ && _); [|discriminate]. apply some_inj in H0.
    eapply planned_ground_call; [| |exact Nd|exact H0]; [destruct o0; try exact Logic.I; contradiction|exact C]. }
  destruct o as [t g v p|t g a|t g p|]; cbn [SystemModel.y_step] in H; try (eapply CA; [|exact H]; exact Logic.I).
  destruct (y_queue y) as [|[t e] q] eqn:Q; [discriminate|]. apply some_inj in H.
  pose proof (yi_events _ _ _ _ _ _ _ _ _ _ _ _ _ _ _ _ I) as Ev. rewrite Q in Ev. apply Forall_inv in Ev. unfold event_ok in Ev. cbn [snd fst] in Ev.
  destruct e as [g j|g j|s' v r src proto pow|s' r src proto].
  - eapply planned_same; [exact C|]. unfold all_times. rewrite Q, (scheduled_cons u (t, VAir g j) q), on_air_app.
    destruct (go_air_cases _ _ _ _ _ _ _ _ _ _ _ _ _ _ _ _ H Ev) as (k & d & s' & _ & _ & G & Ca). cbn zeta in Ca.
    assert (Eq : forall n, on_air_at u (NGround t g (GMac k) [EAir (job_uid j) (job_tag j)] :: n) = scheduled u [(t, VAir g j)] ++ on_air_at u n).
    { intros n. cbn. destruct (job_uid j =? u); reflexivity. }
    destruct Ca as [(Su & -> & ->)|(Su & -> & ->)]; cbn [add_event set_ground y_queue]; rewrite Eq, !scheduled_post;
      cbn [scheduled on_air_at flat_map air_of snd fst app]; rewrite ?app_nil_r, <- ?app_assoc; reflexivity.
  - destruct (job_index j (g_mac (y_ground y g))) as [n|] eqn:K; [|discriminate].
    eapply (planned_ground_call u (mkSys t q (y_ground y) (y_mac y) (y_calls y))); [| |exact Nd|exact H].
    + exists j. cbn [y_ground]. split; [apply job_index_nth; exact K|exact Ev].
    + unfold planned, all_times in *. rewrite Q in C. exact C.
  - injection H as <- <-. eapply planned_same; [exact C|]. unfold all_times. rewrite Q. cbn [arrive fst snd y_queue].
    rewrite on_air_app, scheduled_post. cbn. rewrite app_nil_r. reflexivity.
  - unfold finish in H. cbn [y_mac] in H. destruct (mac_finish rx (y_mac y s') r) as [[m up]| | |] eqn:Fi; cbn [rbind] in H; try discriminate.
    injection H as <- <-. eapply planned_same; [exact C|]. unfold all_times. rewrite Q. cbn [y_queue].
    assert (E1 : forall (f : Z -> Z * Z) l, on_air_at u (map (fun v => NUp t s' v (fst (f v)) (snd (f v))) l) = []) by (induction l; auto).
    change (NSat t s' OFinish :: ?x) with ([NSat t s' OFinish] ++ x). rewrite !on_air_app, E1. cbn. rewrite app_nil_r. reflexivity.
Qed.

(** The replicas of a packet go out when the MAC planned them, all of them together, once. *)
Lemma planned_run : forall u ops y ns, NoDup (sent_uids ops) -> net_run w rx m0 ops = Some (Ok (y, ns)) -> planned u y ns.
Proof.
  intros u. induction ops as [|o ops IH] using rev_ind; intros y ns N R.
  - cbn in R. injection R as <- <-. left. reflexivity.
  - pose proof (handed_once _ _ _ N R) as Hn. unfold net_run in R. apply y_run_snoc in R. destruct R as (y1 & n1 & n2 & A & B & ->).
    eapply planned_step; [exact A|exact Hn|apply IH; [|exact A]|exact B].
    unfold sent_uids in N. rewrite flat_map_app in N. eapply nodup_app_l; exact N.
Qed.
End Plan.
