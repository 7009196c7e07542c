(** Faces on inter-satellite links. *)
From Coq Require Import ZArith List Lia Bool Arith Permutation Sorted.
From Verif Require Import Base SatAddrModel DeviceModel DeviceSpec DeviceProofs ChannelModel LinkModel LinkSpec LinkProofs LinkDevices
  IslNetSpec IslNetProps FaceModel FaceSpec FaceProofs FaceNetSpec FaceDownProps.
Import ListNotations.
Open Scope Z_scope.

Lemma isl_run_n : forall w ops, n_run (isl_l_step w) (l_init (fun _ => tt)) ops = w_run w ops.
Proof. intros. apply link_run_n. Qed.

(** ** One device *)
(** Every protocol number on the air is one that was asked for, if not of this packet (C42). *)
Lemma isl_protos : forall (P : Z -> Prop) fits dur ops d tr, (forall u, 0 <= dur u) ->
  s_run (i_step fits dur) s_init ops = Some (Ok (d, tr)) ->
  Forall (fun e => P (u16 (snd e))) (s_sends ops) -> Forall (fun a => P (a_proto a)) (airings tr).
Proof.
  intros P fits dur ops d tr Dp R Sm.
  assert (Gen : forall ops d tr d' ev, Forall (fun e => P (u16 (snd e))) (s_sends ops) ->
    Forall (fun c => P (c_proto c)) (s_pending d) -> Forall (fun a => P (a_proto a)) (airings tr) ->
    t_inv dur d tr -> s_run (i_step fits dur) d ops = Some (Ok (d', ev)) -> Forall (fun a => P (a_proto a)) (airings (tr ++ ev))).
  { clear - Dp. induction ops as [|o l IH]; intros d tr d' ev Sm Pe Ai Ti R; cbn [s_run] in R.
    - injection R as <- <-. rewrite app_nil_r. exact Ai.
    - destruct (i_step fits dur d o) as [[[d1 e1]| | |]|] eqn:E; try discriminate.
      destruct (s_run (i_step fits dur) d1 l) as [[[d2 e2]| | |]|] eqn:F; try discriminate.
      injection R as <- <-. rewrite app_assoc.
      destruct (i_moves dur Dp fits d tr o d1 e1 Ti E) as [T1 _].
      assert (K : Forall (fun c => P (c_proto c)) (s_pending d1) /\ Forall (fun a => P (a_proto a)) (airings e1)).
      { destruct o as [t u q|]; cbn [i_step] in E.
        - destruct (_ && _) in E; [|discriminate]. apply some_inj in E. unfold i_send in E.
          cbn in Sm. pose proof (Forall_inv Sm) as Sq. cbn in Sq.
          destruct (fits (s_queue d) u); [destruct (s_busy d) eqn:B|]; try (injection E as <- <-; split; [exact Pe|constructor]).
          destruct (t_shape dur d tr Ti) as [(_ & Pd & Q)|[B' _]]; [|congruence].
          rewrite Pd, Q in E. cbn in E. injection E as <- <-. cbn. split; repeat constructor; exact Sq.
        - destruct (t_shape dur d tr Ti) as [(_ & Pd & Q)|[B' [c Pd]]]; rewrite Pd in E, Pe; [discriminate|].
          apply some_inj in E. pose proof (Forall_inv Pe) as Pc. unfold i_complete in E. destruct (s_queue d).
          + injection E as <- <-. split; constructor.
          + cbn in E. injection E as <- <-. cbn. split; repeat constructor; exact Pc. }
      destruct K as [K1 K2]. apply (IH d1 (tr ++ e1) d2 e2); auto.
      + destruct o; cbn in Sm; [inversion Sm; assumption|exact Sm].
      + rewrite airings_app. apply Forall_app. auto. }
  apply (Gen ops s_init [] d tr Sm); [constructor|constructor|apply t_inv_init|exact R].
Qed.

Lemma i_took : forall fits dur (Fi : forall q u, fits q u = true) d o d' ev,
  i_step fits dur d o = Some (Ok (d', ev)) -> took ev = asks o.
Proof.
  intros fits dur Fi d o d' ev S. destruct o as [t u p|]; cbn [i_step] in S.
  - destruct (_ && _); [|discriminate]. apply some_inj in S. unfold i_send in S. rewrite Fi in S. destruct (s_busy d); [injection S as <- <-; reflexivity|].
    destruct (s_queue d ++ [u]); [injection S as <- <-; reflexivity|]. cbn in S. injection S as <- <-. reflexivity.
  - destruct (s_pending d) as [|c l]; [discriminate|]. apply some_inj in S. unfold i_complete in S. destruct (s_queue d); [injection S as <- <-; reflexivity|].
    cbn in S. injection S as <- <-. reflexivity.
Qed.
Lemma i_took_asked : forall fits dur d o d' ev x, i_step fits dur d o = Some (Ok (d', ev)) -> In x (took ev) -> In x (asks o).
Proof.
  intros fits dur d o d' ev x S H. destruct o as [t u p|]; cbn [i_step] in S.
  - destruct (_ && _); [|discriminate]. apply some_inj in S. unfold i_send in S. destruct (fits _ _); [|injection S as <- <-; destruct H].
    destruct (s_busy d); [injection S as <- <-; exact H|].
    destruct (s_queue d ++ [u]); [injection S as <- <-; exact H|]. cbn in S. injection S as <- <-. exact H.
  - destruct (s_pending d) as [|c l]; [discriminate|]. apply some_inj in S. unfold i_complete in S. destruct (s_queue d); [injection S as <- <-; destruct H|].
    cbn in S. injection S as <- <-. destruct H.
Qed.
Lemma i_took_part : forall fits dur u ops d d' ev, s_run (i_step fits dur) d ops = Some (Ok (d', ev)) ->
  (forall x, In x (took ev) -> In x (flat_map asks ops)) /\
  (count_occ Z.eq_dec (map (fun x => snd (fst x)) (took ev)) u <= count_occ Z.eq_dec (map (fun x => snd (fst x)) (flat_map asks ops)) u)%nat.
Proof.
  intros fits dur u. induction ops as [|o ops IH]; intros d d' ev R; cbn [s_run] in R; [injection R as <- <-; split; [intros x []|cbn; lia]|].
  destruct (i_step fits dur d o) as [[[d1 e1]| | |]|] eqn:S; try discriminate. destruct (s_run _ d1 ops) as [[[d2 e2]| | |]|] eqn:R2; try discriminate. injection R as <- <-.
  destruct (IH _ _ _ R2) as [A B]. split.
  - intros x H. unfold took in H. rewrite flat_map_app in H. cbn [flat_map]. apply in_or_app. apply in_app_or in H. destruct H as [H|H]; [left; eapply i_took_asked; eauto|right; auto].
  - unfold took. rewrite flat_map_app. cbn [flat_map]. rewrite !map_app, !count_occ_app. fold (took e1) (took e2).
    enough ((count_occ Z.eq_dec (map (fun x => snd (fst x)) (took e1)) u <= count_occ Z.eq_dec (map (fun x => snd (fst x)) (asks o)) u)%nat) by lia.
    assert (L : took e1 = [] \/ took e1 = asks o).
    { clear - S. destruct o as [t v p|]; cbn [i_step] in S.
      - destruct (_ && _); [|discriminate]. apply some_inj in S. unfold i_send in S. destruct (fits _ _); [|injection S as <- <-; left; reflexivity].
        right. destruct (s_busy d); [injection S as <- <-; reflexivity|]. destruct (s_queue d ++ [v]); [injection S as <- <-; reflexivity|]. cbn in S. injection S as <- <-. reflexivity.
      - left. destruct (s_pending d) as [|c l]; [discriminate|]. apply some_inj in S. unfold i_complete in S. destruct (s_queue d); [injection S as <- <-; reflexivity|].
        cbn in S. injection S as <- <-. reflexivity. }
    destruct L as [->| ->]; cbn; lia.
Qed.
Lemma took_requests : forall tr, requests tr = map fst (took tr).
Proof. unfold requests, took. induction tr as [|[t u p|u|a] tr IH]; cbn; rewrite ?IH; reflexivity. Qed.

(** ** The network *)
Section IslFaces.
Variable w : islnet.
Variable ndn : Z.
Hypothesis Ln : w_linked w.
Hypothesis Hn : is_u16 ndn.
Local Notation elab := (elab (O := lop) (X := unit) LSend isl_do ndn).

Lemma one_kind_prefix : forall (cs : list (fcall unit)) c, one_kind ndn (cs ++ [c]) -> one_kind ndn cs.
Proof.
  intros cs c H i. destruct (H i) as [A|[A B]]; [left|right; split]; intros; [intros C; eapply A|intros C; eapply A|eapply B]; apply in_or_app; left; eassumption.
Qed.
Lemma isl_as_send : forall x : unit, link_send (isl_do x) = None.
Proof. reflexivity. Qed.
Lemma isl_sends : forall cs ops tab, elab cs ops tab -> forall t i u p, In (LSend t i u p) ops ->
  (exists b, In (u, [Block b]) tab /\ In (FSend t i b) cs /\ p = ndn) \/ (In (u, [Foreign]) tab /\ In (FRaw t i p) cs).
Proof. intros cs ops tab E t i u p H. exact (elab_send LSend isl_do ndn link_send (fun _ _ _ _ => eq_refl) isl_as_send cs ops tab E _ t i u p H eq_refl). Qed.

Lemma isl_asked : forall ops y ns i, w_run w ops = Some (Ok (y, ns)) -> flat_map asks (dev_ops i ns) = sends_at i ops.
Proof.
  intros ops y ns i R. pose proof (isl_run_inv w Ln ops y ns R) as I. apply asked_ops; [exact (isl_obeys w Ln ops y ns R)|].
  intros t j o ev H t' u p E. destruct (li_air _ _ _ _ _ _ _ I _ _ _ _ H) as [A _]. symmetry. eapply A. exact E.
Qed.

Lemma sends_at_in : forall (ops : list (lop (F := unit))) i x, In x (sends_at i ops) -> In (LSend (fst (fst x)) i (snd (fst x)) (snd x)) ops.
Proof.
  intros ops i x H. unfold sends_at in H. apply in_flat_map in H. destruct H as (o & Ho & H). destruct o as [t j v p| |]; try contradiction. cbn in H.
  destruct (Nat.eqb_spec j i) as [->|]; [|contradiction]. destruct H as [<-|[]]. exact Ho.
Qed.

(** What is on the air was sent, by that device, not later; protocol numbers as asked by that device. *)
Lemma isl_aired : forall ops y ns s, w_run w ops = Some (Ok (y, ns)) -> In s (sendings ns) ->
  (exists t p, In (LSend t (sd_from s) (sd_uid s) p) ops /\ t <= sd_time s) /\
  (exists t u p, In (LSend t (sd_from s) u p) ops /\ sd_proto s = u16 p).
Proof.
  intros ops y ns s R Hs. pose proof (isl_run_inv w Ln ops y ns R) as I. set (i := sd_from s).
  pose proof (isl_dur_pos w Ln i) as Dp. pose proof (li_dev _ _ _ _ _ _ _ I i) as D.
  assert (Ha : exists a, In a (airings (dev_events i ns)) /\ s = mkSending (a_start a) i (a_uid a) (a_proto a)).
  { assert (H : In s (filter (from i) (sendings ns))) by (apply filter_In; split; [exact Hs|unfold from; apply Nat.eqb_refl]).
    rewrite (device_sendings _ _ _ _ _ _ y i I) in H. apply in_map_iff in H. destruct H as (a & Ea & H). exists a. split; [exact H|symmetry; exact Ea]. }
  destruct Ha as (a & Ha & Es). pose proof (isl_asked ops y ns i R) as Ak.
  pose proof (sends_at_in ops i) as Sent.
  split.
  - assert (H : exists t, In (t, a_uid a) (requests (dev_events i ns)) /\ t <= a_start a).
    { destruct (li_inv _ _ _ _ _ _ _ I i) as [_ Sh _ _ _].
      assert (T : exists rest, in_turn (w_tx w (w_rate w i)) 0 (requests (dev_events i ns)) = starts (airings (dev_events i ns)) ++ rest).
      { destruct Sh as [(_ & _ & _ & _ & T)|(c & m & _ & _ & _ & _ & T & _)]; [exists []; rewrite app_nil_r; congruence|eauto]. }
      destruct T as [rest T]. assert (Hi : In (a_start a, a_uid a) (in_turn (w_tx w (w_rate w i)) 0 (requests (dev_events i ns)))).
      { rewrite T. apply in_or_app. left. unfold starts. apply in_map_iff. eauto. }
      clear - Hi. revert Hi. generalize 0. induction (requests (dev_events i ns)) as [|[t v] l IH]; intros f Hi; [destruct Hi|]. cbn [in_turn] in Hi. destruct Hi as [[= E1 E2]|Hi].
      - exists t. split; [left; congruence|lia].
      - destruct (IH _ Hi) as (t' & A & B). exists t'. split; [right; exact A|exact B]. }
    destruct H as (t & H & Le). rewrite took_requests in H. apply in_map_iff in H. destruct H as ([[t1 u1] p] & E & H). cbn in E. injection E as -> ->.
    apply (i_took_part _ _ 0 _ _ _ _ D) in H. rewrite Ak in H. apply Sent in H. cbn in H. exists t, p. rewrite Es. cbn. split; assumption.
  - assert (F : Forall (fun a => exists t u p, In (LSend t i u p) ops /\ a_proto a = u16 p) (airings (dev_events i ns))).
    { eapply (isl_protos (fun q => exists t u p, In (LSend t i u p) ops /\ q = u16 p)); [exact Dp|exact D|].
      apply Forall_forall. intros [v q] H. unfold s_sends in H. apply in_flat_map in H. destruct H as (o & Ho & H). destruct o as [t v' q'|]; cbn in H; [|contradiction].
      destruct H as [[= -> ->]|[]]. exists t, v, q. split; [|reflexivity]. change (LSend t i v q) with (LSend (F := unit) (fst (fst (t, v, q))) i (snd (fst (t, v, q))) (snd (t, v, q))).
      apply Sent. rewrite <- Ak. apply in_flat_map. eexists. split; [exact Ho|]. left. reflexivity. }
    rewrite Forall_forall in F. rewrite Es. cbn [sd_proto]. apply F. exact Ha.
Qed.

Lemma up_sending : forall ops y ns t f, w_run w ops = Some (Ok (y, ns)) -> In (KUp t f) ns ->
  exists s, In s (sendings ns) /\ f = w_frame w s /\ t = fl_arr f + fl_lasts f.
Proof.
  intros ops y ns t f R H. destruct (isl_network_conserves w ops y ns Ln R) as (_ & _ & _ & _ & Pe & _ & Up).
  assert (Hp : In f (passed ns)) by (apply in_flat_map; eexists; split; [exact H|left; reflexivity]).
  assert (Hc : In f (map (w_frame w) (filter (w_reaches w) (sendings ns)))) by (apply (Permutation_in _ Pe); apply in_or_app; left; exact Hp).
  apply in_map_iff in Hc. destruct Hc as (s & <- & Hs). apply filter_In in Hs. exists s. split; [apply Hs|]. split; [reflexivity|exact (Up _ _ H)].
Qed.

(** Where there is an NDN frame, its packet was made by a face. *)
Lemma isl_ndn_frame : forall cs ops tab y ns s, elab cs ops tab -> one_kind ndn cs -> w_run w ops = Some (Ok (y, ns)) -> In s (sendings ns) -> sd_proto s = ndn ->
  exists t b, In (sd_uid s, [Block b]) tab /\ In (FSend t (sd_from s) b) cs /\ t <= sd_time s.
Proof.
  intros cs ops tab y ns s E K R Hs Ep. destruct (isl_aired ops y ns s R Hs) as [(t & p & Ho & Le) (t' & u' & p' & Ho' & Ep')].
  destruct (K (sd_from s)) as [A|[A B]].
  - destruct (isl_sends cs ops tab E _ _ _ _ Ho) as [(b & Hb & Hf & _)|[_ Hf]]; [|exfalso; exact (A _ _ Hf)]. eauto.
  - exfalso. destruct (isl_sends cs ops tab E _ _ _ _ Ho') as [(b & _ & Hf & _)|[_ Hf]]; [exact (A _ _ Hf)|]. apply (B _ _ Hf). congruence.
Qed.

Lemma isl_net_safe : forall cs ops tab r, elab cs ops tab -> one_kind ndn cs -> NoDup (map fst tab) ->
  n_run (isl_l_step w) (l_init (fun _ => tt)) ops = Some r -> exists x, r = Ok x.
Proof. intros cs ops tab r E G Nd R. rewrite isl_run_n in R. eapply isl_network_safe; eauto. Qed.
Lemma isl_net_blocks : forall cs ops tab s ns n t r u, elab cs ops tab -> one_kind ndn cs -> NoDup (map fst tab) ->
  n_run (isl_l_step w) (l_init (fun _ => tt)) ops = Some (Ok (s, ns)) -> In n ns -> link_up n = Some (t, r, u, ndn) -> exists b, In (u, [Block b]) tab.
Proof.
  intros cs ops tab y ns n t r u E G Nd R Hi U. rewrite isl_run_n in R. destruct n as [| | | |t' f]; try discriminate. cbn in U. injection U as -> <- <- Ep.
  destruct (up_sending _ _ _ _ _ R Hi) as (s & Hs & -> & _). destruct (isl_ndn_frame cs ops tab y ns s E G R Hs Ep) as (t0 & b & Hb & _). eauto.
Qed.
End IslFaces.

(** * C70, inter-satellite links *)

(** Two faces can fail each other: other programs on the satellite may make a face read a packet that is not a block,
    although they use another protocol number, because a packet that waited goes out with the number of the one before it (C42). *)
Definition isl_faces_apart : Prop := forall w ndn cs r, w_linked w -> is_u16 ndn -> apart ndn cs -> isl_calls w ndn cs = Some r -> exists x, r = Ok x.

Lemma isl_faces_example : isl_calls pairs 30000 ([FSend 10 0 70; FRaw 11 0 2048] ++ repeat (FDo tt) 6) = Some UB.
Proof. vm_compute. reflexivity. Qed.

Theorem isl_faces_refuted : ~ isl_faces_apart.
Proof.
  intros H. assert (Ap : apart (X := unit) 30000 ([FSend 10 0 70; FRaw 11 0 2048] ++ repeat (FDo tt) 6)).
  { intros t i p Hi. cbn in Hi. repeat (destruct Hi as [Hi|Hi]; [try discriminate; injection Hi as <- <- <-; vm_compute; discriminate|]). destruct Hi. }
  destruct (H pairs 30000 _ _ (proj1 pairs_linked) ltac:(unfold is_u16; lia) Ap isl_faces_example) as [x E]. discriminate.
Qed.
Print Assumptions isl_faces_refuted.

Lemma isl_faces : forall w ndn cs r, w_linked w -> is_u16 ndn -> one_kind ndn cs -> isl_calls w ndn cs = Some r ->
  exists fw fns ops tab, r = Ok (fw, fns) /\ f_inv (isl_l_step w) LSend isl_do link_up ndn (l_init (fun _ => tt)) cs ops tab fw fns.
Proof.
  intros w ndn cs r Ln Hn G R.
  eapply (faces_inv (isl_l_step w) LSend isl_do link_up ndn (l_init (fun _ => tt)) (one_kind ndn)); [| | |exact G|exact R].
  - apply one_kind_prefix.
  - apply isl_net_safe. exact Ln.
  - apply isl_net_blocks; assumption.
Qed.

Lemma link_all_keys : forall F (ops : list (lop (F := F))), all_keys link_send ops = given ops.
Proof. intros F. unfold all_keys, given. induction ops as [|o l IH]; [reflexivity|]. cbn [flat_map]. rewrite IH. destruct o; reflexivity. Qed.
Lemma nodup_sends_at : forall (ops : list (lop (F := unit))) i, NoDup (given ops) -> NoDup (map (fun x => snd (fst x)) (sends_at i ops)).
Proof.
  intros ops i. induction ops as [|o ops IH]; intros N; [constructor|]. unfold given in N. cbn [flat_map] in N. fold (given ops) in N.
  unfold sends_at. cbn [flat_map]. fold (sends_at i ops). rewrite map_app.
  assert (Sub : forall u, In u (map (fun x => snd (fst x)) (sends_at i ops)) -> In u (given ops)).
  { clear. intros u H. apply in_map_iff in H. destruct H as (x & <- & H). apply sends_at_in in H. apply in_flat_map. eexists. split; [exact H|]. left. reflexivity. }
  destruct o as [t j u p| |]; cbn in N |- *; auto. inversion N as [|? ? N1 N2]; subst. destruct (j =? i)%nat; cbn; auto. constructor; auto.
Qed.

(** Each packet goes out at most once, from one device. *)
Lemma isl_aired_once : forall w (Ln : w_linked w) ops y ns i, w_run w ops = Some (Ok (y, ns)) -> NoDup (given ops) -> NoDup (map sd_uid (sent_by i ns)).
Proof.
  intros w Ln ops y ns i R N. pose proof (isl_run_inv w Ln ops y ns R) as I. unfold sent_by. change (fun s => (sd_from s =? i)%nat) with (from i).
  rewrite (device_sendings _ _ _ _ _ _ y i I), map_map. cbn [sd_uid]. pose proof (li_dev _ _ _ _ _ _ _ I i) as D.
  assert (Nr : NoDup (map snd (requests (dev_events i ns)))).
  { rewrite took_requests, map_map. apply (NoDup_count_occ Z.eq_dec). intros u. destruct (i_took_part _ _ u _ _ _ _ D) as [_ Le].
    etransitivity; [exact Le|]. rewrite (isl_asked w Ln ops y ns i R). apply (NoDup_count_occ Z.eq_dec). apply nodup_sends_at. exact N. }
  destruct (li_inv _ _ _ _ _ _ _ I i) as [_ Sh _ _ _].
  assert (T : exists rest, in_turn (w_tx w (w_rate w i)) 0 (requests (dev_events i ns)) = starts (airings (dev_events i ns)) ++ rest).
  { destruct Sh as [(_ & _ & _ & _ & T)|(c & m & _ & _ & _ & _ & T & _)]; [exists []; rewrite app_nil_r; congruence|eauto]. }
  destruct T as [rest T]. assert (M : map snd (requests (dev_events i ns)) = map a_uid (airings (dev_events i ns)) ++ map snd rest).
  { rewrite <- (in_turn_uids (w_tx w (w_rate w i)) (requests (dev_events i ns)) 0), T, map_app. f_equal. unfold starts. rewrite map_map. reflexivity. }
  rewrite M in Nr. clear - Nr. induction (map a_uid (airings (dev_events i ns))) as [|x l IH]; [constructor|]. cbn in Nr. inversion Nr as [|? ? A B]; subst.
  constructor; [|auto]. intros H. apply A. apply in_or_app. left. exact H.
Qed.
Lemma isl_passed_once : forall w (Ln : w_linked w) ops y ns r, w_run w ops = Some (Ok (y, ns)) -> NoDup (given ops) -> NoDup (map fl_uid (passed_at r ns)).
Proof.
  intros w Ln ops y ns r R N. pose proof (isl_aired_once w Ln ops y ns (w_peer w r) R N) as A.
  destruct (isl_network_conserves w ops y ns Ln R) as (_ & _ & _ & _ & Pe & _).
  assert (Pf : Permutation (passed_at r ns ++ filter (fun f => (fl_to f =? r)%nat) (arriving (l_queue y) ++ flying (l_queue y)))
                 (map (w_frame w) (filter (w_reaches w) (sent_by (w_peer w r) ns)))).
  { unfold sent_by. rewrite <- (to_peer w Ln). unfold passed_at. rewrite <- filter_app. clear - Pe. revert Pe.
    generalize (map (w_frame w) (filter (w_reaches w) (sendings ns))) as l'. generalize (passed ns ++ arriving (l_queue y) ++ flying (l_queue y)) as l.
    intros l l' P. induction P as [|x l l' P IH|x z l|l l' l'' P1 IH1 P2 IH2]; cbn [filter].
    - constructor.
    - destruct (_ =? _)%nat; [constructor|]; exact IH.
    - destruct (fl_to x =? r)%nat, (fl_to z =? r)%nat; first [apply perm_swap|reflexivity].
    - etransitivity; eassumption. }
  apply (Permutation_map fl_uid) in Pf. rewrite map_app, map_map in Pf.
  assert (Nm : NoDup (map (fun s => fl_uid (w_frame w s)) (filter (w_reaches w) (sent_by (w_peer w r) ns)))).
  { clear - A. induction (sent_by (w_peer w r) ns) as [|s l IH]; [constructor|]. cbn [map] in A. inversion A as [|? ? A1 A2]; subst. cbn [filter].
    destruct (w_reaches w s); [|auto]. cbn [map]. constructor; [|auto]. intros H. apply A1. apply in_map_iff in H. destruct H as (s' & E & H). cbn in E. rewrite <- E.
    apply in_map. apply filter_In in H. tauto. }
  apply (Permutation_NoDup (Permutation_sym Pf)) in Nm. clear - Nm. induction (map fl_uid (passed_at r ns)) as [|x l IH]; [constructor|]. cbn in Nm.
  inversion Nm as [|? ? A B]; subst. constructor; [|auto]. intros H. apply A. apply in_or_app. auto.
Qed.

(** If each device is used by faces only or by other programs only, nothing fails, and what a face gets was sent, not later, by a face
    at the other end. *)
Theorem isl_faces_partial : forall w ndn cs r, w_linked w -> is_u16 ndn -> one_kind ndn cs -> isl_calls w ndn cs = Some r ->
  exists fw fns, r = Ok (fw, fns) /\
    (forall t r b, In (FGot t r b) fns -> exists t0, In (FSend t0 (w_peer w r) b) cs /\ t0 <= t) /\
    (forall r, exists rest, Permutation (got_at r fns ++ rest) (blocks_sent cs)).
Proof.
  intros w ndn cs r Ln Hn G R. destruct (isl_faces w ndn cs r Ln Hn G R) as (fw & fns & ops & tab & -> & I). exists fw, fns. split; [reflexivity|].
  pose proof (fi_elab _ _ _ _ _ _ _ _ _ _ _ I) as E. pose proof (fi_once _ _ _ _ _ _ _ _ _ _ _ I) as Nd. pose proof (fi_run _ _ _ _ _ _ _ _ _ _ _ I) as Rn. split.
  - intros t q b H.
    edestruct (got_up (isl_l_step w) LSend isl_do link_up ndn (l_init (fun _ => tt)) (one_kind ndn)) as (n & u & Hi & U & Hb); [apply isl_net_blocks; assumption|exact I|exact G|exact H|].
    rewrite isl_run_n in Rn. destruct n as [| | | |t' f]; try discriminate. cbn in U. injection U as -> <- <- Ep.
    destruct (up_sending w Ln _ _ _ _ _ Rn Hi) as (s & Hs & Ef & Et). destruct (isl_ndn_frame w ndn Ln cs ops tab _ _ s E G Rn Hs) as (t0 & b' & Hb' & Hf & Le).
    { rewrite Ef in Ep. exact Ep. }
    assert (Eb : b = b').
    { assert (Some [Block b] = Some [Block b']); [|congruence]. rewrite <- (in_find _ _ _ _ Nd Hb). apply in_find; [exact Nd|]. rewrite Ef. exact Hb'. }
    subst b'. exists t0. split.
    + rewrite Ef. cbn [w_frame fl_to]. rewrite (ws_peer w Ln). exact Hf.
    + rewrite Et, Ef. cbn [w_frame fl_arr fl_lasts]. pose proof (ws_delay w Ln (sd_time s) (sd_from s) (w_peer w (sd_from s))).
      pose proof (ws_tx w Ln (w_rate w (sd_from s)) (sd_uid s)). lia.
  - intros q. rewrite (gets_at tab ndn q _ fns (fi_got _ _ _ _ _ _ _ _ _ _ _ I)), (elab_blocks _ _ _ _ _ _ E).
    destruct (sub_blocks tab (map fl_uid (filter (fun f => (fl_to f =? q)%nat && (fl_proto f =? ndn)) (passed (net_notes fns)))) Nd) as (rest & P & _); [| |eauto].
    + rewrite isl_run_n in Rn.
      assert (Ff : forall l, filter (fun f => (fl_to f =? q)%nat && (fl_proto f =? ndn)) l = filter (fun f => fl_proto f =? ndn) (filter (fun f => (fl_to f =? q)%nat) l)).
      { clear. induction l as [|x l IH]; [reflexivity|]. cbn [filter]. destruct (_ =? _)%nat; cbn [filter andb]; rewrite IH; reflexivity. }
      rewrite Ff. apply nodup_filter_map. eapply (isl_passed_once w Ln); [exact Rn|]. clear - E Nd.
      assert (Gv : given ops = map fst tab).
      { rewrite <- (elab_keys LSend isl_do ndn link_send (fun _ _ _ _ => eq_refl) isl_as_send cs ops tab E). symmetry. apply link_all_keys. }
      rewrite Gv. exact Nd.
    + intros u Hu. apply in_map_iff in Hu. destruct Hu as (f & <- & Hf). apply filter_In in Hf. destruct Hf as [Hf Hp]. apply andb_true_iff in Hp. destruct Hp as [_ Hp].
      apply Z.eqb_eq in Hp. unfold passed in Hf. apply in_flat_map in Hf. destruct Hf as (n & Hi & Hf). destruct n as [| | | |t x]; cbn in Hf; try contradiction. destruct Hf as [->|[]].
      eapply isl_net_blocks; eauto. cbn. rewrite Hp. reflexivity.
Qed.
Print Assumptions isl_faces_partial.

(** With room in the queues, no losses and no overtaking, the face at one end has got, when all is quiet, exactly the blocks
    of the face at the other end, in that order. *)
Theorem isl_faces_all : forall w ndn cs fw fns r, w_linked w -> is_u16 ndn -> one_kind ndn cs -> no_overtaking w ->
  isl_calls w ndn cs = Some (Ok (fw, fns)) -> l_queue (fw_net fw) = [] ->
  (forall j q u, w_fits w j q u = true) -> (forall t u i j, w_success w t u i j = true) ->
  got_at r fns = blocks_from (w_peer w r) cs.
Proof.
  intros w ndn cs fw fns r Ln Hn G No R Q Fi Su. destruct (isl_faces w ndn cs _ Ln Hn G R) as (fw' & fns' & ops & tab & Eq & I). injection Eq as <- <-.
  pose proof (fi_elab _ _ _ _ _ _ _ _ _ _ _ I) as E. pose proof (fi_once _ _ _ _ _ _ _ _ _ _ _ I) as Nd. pose proof (fi_run _ _ _ _ _ _ _ _ _ _ _ I) as Rn. rewrite isl_run_n in Rn.
  set (i := w_peer w r). set (ns := net_notes fns) in *.
  assert (Ap : forall t j p, In (FRaw t j p) cs -> p <> ndn).
  { intros t j p H Eq. subst p. destruct (G j) as [A|[_ B]]; [exact (A _ _ H)|]. apply (B _ _ H). unfold u16. apply Z.mod_small. exact Hn. }
  rewrite (gets_at tab ndn r _ fns (fi_got _ _ _ _ _ _ _ _ _ _ _ I)). fold ns.
  rewrite (elab_from LSend isl_do ndn link_send (fun _ _ _ _ => eq_refl) isl_as_send i cs ops tab E Nd Ap). f_equal.
  pose proof (isl_run_inv w Ln ops _ ns Rn) as Li. destruct (isl_delivers w ops _ ns r Ln No Rn Q) as [De Sc]. fold i in De, Sc.
  assert (Ff : filter (fun f => (fl_to f =? r)%nat && (fl_proto f =? ndn)) (passed ns) = filter (fun f => fl_proto f =? ndn) (passed_at r ns)).
  { unfold passed_at. clear. induction (passed ns) as [|x l IH]; [reflexivity|]. cbn [filter]. destruct (_ =? _)%nat; cbn [filter andb]; rewrite IH; reflexivity. }
  rewrite Ff, De. clear Ff De.
  assert (Al : filter (w_reaches w) (sent_by i ns) = sent_by i ns).
  { clear - Su. induction (sent_by i ns) as [|s l IH]; [reflexivity|]. cbn [filter]. unfold w_reaches at 1. rewrite Su, IH. reflexivity. }
  rewrite Al. clear Al.
  assert (Us : map sd_uid (sent_by i ns) = map (fun x => snd (fst x)) (sends_at i ops)).
  { apply (f_equal (map snd)) in Sc. rewrite in_turn_uids, map_map in Sc. cbn [snd] in Sc. change (map (fun x => sd_uid x)) with (map sd_uid) in Sc. rewrite Sc, took_requests, map_map.
    rewrite (all_took _ (i_took (w_fits w i) (w_tx w (w_rate w i)) (Fi i)) _ _ _ _ (li_dev _ _ _ _ _ _ _ Li i)).
    rewrite (isl_asked w Ln ops _ ns i Rn). reflexivity. }
  assert (Hu : Forall (fun s => exists t u p, In (LSend t i u p) ops /\ sd_proto s = u16 p) (sent_by i ns)).
  { apply Forall_forall. intros s Hs. apply filter_In in Hs. destruct Hs as [Hs Hi]. apply Nat.eqb_eq in Hi. destruct (isl_aired w Ln ops _ ns s Rn Hs) as [_ A]. rewrite Hi in A. exact A. }
  assert (Ks : keys ndn link_send i ops = map (fun x => snd (fst x)) (filter (fun x => snd x =? ndn) (sends_at i ops))).
  { clear. unfold keys, sends_at. induction ops as [|o l IH]; [reflexivity|]. cbn [flat_map]. rewrite filter_app, map_app, IH. f_equal. destruct o as [t j u p| |]; try reflexivity.
    cbn [link_send]. destruct (j =? i)%nat; [|reflexivity]. cbn [andb filter snd]. destruct (p =? ndn); reflexivity. }
  rewrite Ks. destruct (G i) as [A|[A B]].
  - assert (P1 : Forall (fun s => sd_proto s = ndn) (sent_by i ns)).
    { eapply Forall_impl; [|exact Hu]. cbn beta. intros s (t & u & p & Ho & Ep). destruct (isl_sends ndn cs ops tab E _ _ _ _ Ho) as [(b & _ & _ & ->)|[_ Hf]]; [|exfalso; exact (A _ _ Hf)].
      rewrite Ep. unfold u16. apply Z.mod_small. exact Hn. }
    assert (P2 : Forall (fun x => snd x = ndn) (sends_at i ops)).
    { apply Forall_forall. intros x Hx. apply sends_at_in in Hx. destruct (isl_sends ndn cs ops tab E _ _ _ _ Hx) as [(b & _ & _ & Ep)|[_ Hf]]; [exact Ep|exfalso; exact (A _ _ Hf)]. }
    assert (F2 : filter (fun x => snd x =? ndn) (sends_at i ops) = sends_at i ops).
    { clear - P2. induction P2 as [|x l Hx P2 IH]; [reflexivity|]. cbn [filter]. rewrite Hx, Z.eqb_refl, IH. reflexivity. }
    rewrite F2, <- Us. clear - P1. induction P1 as [|s l Hs P1 IH]; [reflexivity|]. cbn [map filter w_frame fl_proto]. rewrite Hs, Z.eqb_refl. cbn [map fl_uid]. rewrite IH. reflexivity.
  - assert (P1 : Forall (fun s => sd_proto s <> ndn) (sent_by i ns)).
    { eapply Forall_impl; [|exact Hu]. cbn beta. intros s (t & u & p & Ho & Ep). destruct (isl_sends ndn cs ops tab E _ _ _ _ Ho) as [(b & _ & Hf & _)|[_ Hf]]; [exfalso; exact (A _ _ Hf)|].
      rewrite Ep. exact (B _ _ Hf). }
    assert (P2 : Forall (fun x => snd x <> ndn) (sends_at i ops)).
    { apply Forall_forall. intros x Hx. apply sends_at_in in Hx. destruct (isl_sends ndn cs ops tab E _ _ _ _ Hx) as [(b & _ & Hf & _)|[_ Hf]]; [exfalso; exact (A _ _ Hf)|].
      exact (Ap _ _ _ Hf). }
    assert (F1 : filter (fun f => fl_proto f =? ndn) (map (w_frame w) (sent_by i ns)) = []).
    { clear - P1. induction P1 as [|s l Hs P1 IH]; [reflexivity|]. cbn [map filter w_frame fl_proto]. destruct (Z.eqb_spec (sd_proto s) ndn); [contradiction|exact IH]. }
    assert (F2 : filter (fun x => snd x =? ndn) (sends_at i ops) = []).
    { clear - P2. induction P2 as [|x l Hx P2 IH]; [reflexivity|]. cbn [filter]. destruct (Z.eqb_spec (snd x) ndn); [contradiction|exact IH]. }
    rewrite F1, F2. reflexivity.
Qed.
Print Assumptions isl_faces_all.

(** Devices 0 and 1 carry NDN both ways, device 3 something else. *)
Definition quiet_pairs : islnet := mkIsl (fun _ u => 5 + Z.abs u) (fun _ => 1) (fun _ _ _ => 3) (fun _ _ _ _ => true)
  (w_channel pairs) other (fun _ _ _ => true).
Example isl_faces_case :
  match isl_calls quiet_pairs 30000 ([FSend 10 0 70; FSend 10 1 80; FSend 11 0 71; FRaw 11 3 2048; FSend 12 0 70] ++ repeat (FDo tt) 15) with
  | Some (Ok (w, fns)) => l_queue (fw_net w) = [] /\ got_at 1 fns = [70; 71; 70] /\ got_at 0 fns = [80] /\ got_at 2 fns = []
  | _ => False
  end.
Proof. vm_compute. repeat split. Qed.
