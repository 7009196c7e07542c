(** Faces on the uplink. *)
From Coq Require Import ZArith List Lia Bool Arith Permutation Sorted.
From Verif Require Import Base SatAddrModel ConstellationModel DeviceModel DeviceSpec DeviceProofs RxModel RxSpec AlohaModel ChannelModel
  SystemModel SystemSpec SystemProofs SystemMacs SystemProps FaceModel FaceSpec FaceProofs FaceNetSpec.
Import ListNotations.
Open Scope Z_scope.

Lemma up_run_n : forall M (w : network) (rx : mac_rx M) m0 ops, n_run (up_y_step w rx) (y_init (w_a0 w) (w_p0 w) m0) ops = net_run w rx m0 ops.
Proof. reflexivity. Qed.

Lemma up_as_send : forall x : up_other, ground_send (up_do x) = None.
Proof. destruct x; reflexivity. Qed.

Section Elab.
Variable ndn : Z.
Local Notation elab := (elab (O := yop) (X := up_other) YSend up_do ndn).

Lemma up_sends : forall cs ops tab, elab cs ops tab -> forall t i u p, In (YSend t i u p) ops ->
  (exists b, In (u, [Block b]) tab /\ In (FSend t i b) cs /\ p = ndn) \/ (In (u, [Foreign]) tab /\ In (FRaw t i p) cs).
Proof. intros cs ops tab E t i u p H. exact (elab_send YSend up_do ndn ground_send (fun _ _ _ _ => eq_refl) up_as_send cs ops tab E _ t i u p H eq_refl). Qed.

Lemma up_uids : forall cs ops tab, elab cs ops tab -> sent_uids ops = map fst tab.
Proof.
  intros cs ops tab E. rewrite <- (elab_keys YSend up_do ndn ground_send (fun _ _ _ _ => eq_refl) up_as_send cs ops tab E).
  unfold all_keys, sent_uids. clear. induction ops as [|o l IH]; [reflexivity|]. cbn [flat_map]. rewrite IH. destruct o; reflexivity.
Qed.

(** The part of an elaboration before some operation. *)
Lemma elab_split : forall cs ops tab, elab cs ops tab -> forall o1 o o2, ops = o1 ++ o :: o2 ->
  exists c1 c c2 tab1, cs = c1 ++ c :: c2 /\ elab c1 o1 tab1 /\
    ((exists t i b u, c = FSend t i b /\ o = YSend t i u ndn /\ In (u, [Block b]) tab) \/
     (exists t i p u, c = FRaw t i p /\ o = YSend t i u p /\ In (u, [Foreign]) tab) \/ exists x, c = FDo x /\ o = up_do x).
Proof.
  assert (Sn : forall A (l : list A) x o1 o o2, l ++ [x] = o1 ++ o :: o2 -> (o2 = [] /\ l = o1 /\ x = o) \/ exists o3, o2 = o3 ++ [x] /\ l = o1 ++ o :: o3).
  { intros A l x o1 o o2 H. destruct o2 as [|y o2 _] using rev_ind.
    - left. apply app_inj_tail in H. destruct H. auto.
    - right. exists o2. rewrite app_comm_cons, app_assoc in H. apply app_inj_tail in H. destruct H as [-> ->]. auto. }
  induction 1 as [|cs ops tab t i b v E IH|cs ops tab t i p v E IH|cs ops tab x E IH]; intros o1 o o2 H; [destruct o1; discriminate| | |];
    apply Sn in H; destruct H as [(-> & <- & <-)|(o3 & -> & H)].
  - exists cs, (FSend t i b), [], tab. split; [reflexivity|]. split; [exact E|]. left. exists t, i, b, v. repeat split. apply in_or_app. right. left. reflexivity.
  - destruct (IH _ _ _ H) as (c1 & c & c2 & tab1 & -> & E1 & D). exists c1, c, (c2 ++ [FSend t i b]), tab1. split; [rewrite <- app_assoc; reflexivity|]. split; [exact E1|].
    destruct D as [(t' & i' & b' & u' & A & B & C)|[(t' & i' & p' & u' & A & B & C)|D]]; [left|right; left|auto]; repeat eexists; eauto; apply in_or_app; auto.
  - exists cs, (FRaw t i p), [], tab. split; [reflexivity|]. split; [exact E|]. right. left. exists t, i, p, v. repeat split. apply in_or_app. right. left. reflexivity.
  - destruct (IH _ _ _ H) as (c1 & c & c2 & tab1 & -> & E1 & D). exists c1, c, (c2 ++ [FRaw t i p]), tab1. split; [rewrite <- app_assoc; reflexivity|]. split; [exact E1|].
    destruct D as [(t' & i' & b' & u' & A & B & C)|[(t' & i' & p' & u' & A & B & C)|D]]; [left|right; left|auto]; repeat eexists; eauto; apply in_or_app; auto.
  - exists cs, (FDo x), [], tab. split; [reflexivity|]. split; [exact E|]. right. right. eauto.
  - destruct (IH _ _ _ H) as (c1 & c & c2 & tab1 & -> & E1 & D). exists c1, c, (c2 ++ [FDo x]), tab1. split; [rewrite <- app_assoc; reflexivity|]. split; [exact E1|]. exact D.
Qed.

Lemma aimed_app : forall g c1 c2 a, aimed a g (c1 ++ c2) = aimed (aimed a g c1) g c2.
Proof. intros g. induction c1 as [|c c1 IH]; intros c2 a; [reflexivity|]. destruct c as [t i b|t i p|[t i b|t i p|]]; cbn [app aimed]; apply IH. Qed.
Lemma pointing_app : forall l1 l2 a, pointing a (l1 ++ l2) = pointing (pointing a l1) l2.
Proof. induction l1 as [|o l1 IH]; intros l2 a; [reflexivity|]. destruct o; cbn [app pointing]; apply IH. Qed.
Lemma orders_app : forall g l1 l2, orders g (l1 ++ l2) = orders g l1 ++ orders g l2.
Proof. intros. unfold orders, asked. rewrite flat_map_app, filter_app, map_app. reflexivity. Qed.

Lemma elab_aimed : forall a g cs ops tab, elab cs ops tab -> pointing a (orders g ops) = aimed a g cs.
Proof.
  intros a g. induction 1 as [|cs ops tab t i b v E IH|cs ops tab t i p v E IH|cs ops tab x E IH]; [reflexivity| | |];
    rewrite orders_app, pointing_app, aimed_app, IH; unfold orders; cbn.
  - destruct (i =? g)%nat; reflexivity.
  - destruct (i =? g)%nat; reflexivity.
  - destruct x as [t i b|t i p|]; cbn; [| |reflexivity]; destruct (i =? g)%nat; reflexivity.
Qed.

Lemma elab_well_aimed : forall w cs ops tab, elab cs ops tab -> aims w cs -> well_aimed w ops.
Proof.
  intros w cs ops tab E Ai l1 t g u p l2 H. destruct (elab_split cs ops tab E _ _ _ H) as (c1 & c & c2 & tab1 & Ec & E1 & D).
  unfold tracked. rewrite (elab_aimed _ _ _ _ _ E1). apply (Ai c1 c c2 g Ec).
  destruct D as [(t' & i' & b' & u' & A & B & C)|[(t' & i' & p' & u' & A & B & C)|(x & A & B)]].
  - injection B as <- <- _ _. eauto.
  - injection B as <- <- _ _. eauto.
  - destruct x; discriminate.
Qed.
End Elab.

Definition up_good (w : network) (ndn : Z) (cs : list (fcall up_other)) : Prop := apart ndn cs /\ aims w cs.
Lemma up_good_prefix : forall w ndn cs c, up_good w ndn (cs ++ [c]) -> up_good w ndn cs.
Proof.
  intros w ndn cs c [A B]. split.
  - intros t i p H. apply (A t i p). apply in_or_app. auto.
  - intros c1 x c2 g E. apply (B c1 x (c2 ++ [c]) g). rewrite E, <- app_assoc. reflexivity.
Qed.

(** ** Any MAC that passes up nothing but the frame that ends *)
Section Single.
Context {M : Type}.
Variable w : network.
Variable rx : mac_rx M.
Variable m0 : M.
Variable ndn : Z.
Hypothesis Pw : proper w.
Hypothesis Es : enough_slots w.
Hypothesis Si : single rx.
Hypothesis To : rx_total rx.
Hypothesis Hn : is_u16 ndn.

Lemma up_from : forall ops y ns, NoDup (sent_uids ops) -> net_run w rx m0 ops = Some (Ok (y, ns)) ->
  forall t s u src proto, In (NUp t s u src proto) ns -> came_from w ops ns (whole_frame w) t s u src proto.
Proof.
  intros ops y ns N R t s u src proto U. eapply (provenance _ w rx m0 rx_end); eauto; [|unfold whole_frame; intros; lia]. apply single_honest. exact Si.
Qed.

Lemma up_net_safe : forall cs ops tab r, elab YSend up_do ndn cs ops tab -> up_good w ndn cs -> NoDup (map fst tab) ->
  n_run (up_y_step w rx) (y_init (w_a0 w) (w_p0 w) m0) ops = Some r -> exists x, r = Ok x.
Proof.
  intros cs ops tab r E [_ Ai] Nd R. rewrite up_run_n in R.
  destruct (rest M w rx m0 ops r Pw Es (total_alive M w rx m0 To)) as [(y & ns & ->) _]; [rewrite (up_uids _ _ _ _ E); exact Nd|eapply elab_well_aimed; eauto|exact R|]. eauto.
Qed.
Lemma up_net_blocks : forall cs ops tab s ns n t r u, elab YSend up_do ndn cs ops tab -> up_good w ndn cs -> NoDup (map fst tab) ->
  n_run (up_y_step w rx) (y_init (w_a0 w) (w_p0 w) m0) ops = Some (Ok (s, ns)) -> In n ns -> sat_up n = Some (t, r, u, ndn) -> exists b, In (u, [Block b]) tab.
Proof.
  intros cs ops tab y ns n t r u E [Ap _] Nd R Hi U. rewrite up_run_n in R. destruct n as [| | |t' s' u' src p']; try discriminate. cbn in U. injection U as -> -> -> ->.
  destruct (up_from ops y ns ltac:(rewrite (up_uids _ _ _ _ E); exact Nd) R _ _ _ _ _ Hi) as (o1 & t0 & g & p & o2 & Eo & _ & _ & Ep & _).
  assert (Ho : In (YSend t0 g u p) ops) by (rewrite Eo; apply in_or_app; right; left; reflexivity).
  destruct (up_sends ndn cs ops tab E _ _ _ _ Ho) as [(b & Hb & _)|[_ Hf]]; [eauto|]. exfalso. apply (Ap _ _ _ Hf). congruence.
Qed.

Lemma up_faces : forall cs r, up_good w ndn cs -> up_calls w rx m0 ndn cs = Some r ->
  exists fw fns ops tab, r = Ok (fw, fns) /\ f_inv (up_y_step w rx) YSend up_do sat_up ndn (y_init (w_a0 w) (w_p0 w) m0) cs ops tab fw fns.
Proof.
  intros cs r G R. eapply (faces_inv (up_y_step w rx) YSend up_do sat_up ndn (y_init (w_a0 w) (w_p0 w) m0) (up_good w ndn)); [| | |exact G|exact R].
  - apply up_good_prefix.
  - apply up_net_safe.
  - apply up_net_blocks.
Qed.

Lemma up_got : forall cs r, up_good w ndn cs -> up_calls w rx m0 ndn cs = Some r ->
  exists fw fns, r = Ok (fw, fns) /\
    forall t s b, In (FGot t s b) fns -> exists c1 t0 g c2, cs = c1 ++ FSend t0 g b :: c2 /\ t0 <= t /\
      get_satellite_addr (w_host w) (w_con w) (aimed (w_a0 w g) g c1) = Ok (Some s).
Proof.
  intros cs r G R. destruct (up_faces cs r G R) as (fw & fns & ops & tab & -> & I). exists fw, fns. split; [reflexivity|]. intros t s b H.
  pose proof (fi_elab _ _ _ _ _ _ _ _ _ _ _ I) as E. pose proof (fi_once _ _ _ _ _ _ _ _ _ _ _ I) as Nd. pose proof (fi_run _ _ _ _ _ _ _ _ _ _ _ I) as Rn.
  edestruct (got_up (up_y_step w rx) YSend up_do sat_up ndn (y_init (w_a0 w) (w_p0 w) m0) (up_good w ndn)) as (n & u & Hi & U & Hb); [apply up_net_blocks|exact I|exact G|exact H|].
  rewrite up_run_n in Rn. destruct n as [| | |t' s' u' src p']; try discriminate. cbn in U. injection U as -> -> -> ->.
  destruct (up_from ops _ _ ltac:(rewrite (up_uids _ _ _ _ E); exact Nd) Rn _ _ _ _ _ Hi) as (o1 & t0 & g & p & o2 & Eo & _ & _ & Ep & Tr & ta & _ & Le & _ & La).
  destruct (elab_split ndn cs ops tab E _ _ _ Eo) as (c1 & c & c2 & tab1 & Ec & E1 & D).
  assert (Blk : forall hs, In (u, hs) tab -> hs = [Block b]).
  { intros hs Hh. assert (Some hs = Some [Block b]); [|congruence]. rewrite <- (in_find _ _ _ _ Nd Hb). symmetry. apply in_find; assumption. }
  destruct D as [(t1 & i1 & b1 & u1 & -> & B & C)|[(t1 & i1 & p1 & u1 & -> & B & C)|(x & -> & B)]]; [| |destruct x; discriminate].
  - injection B as <- <- <- _. apply Blk in C. injection C as ->. exists c1, t0, g, c2. split; [exact Ec|]. split.
    + destruct Pw as (P1 & P2 & _). pose proof (P1 (w_rate w g) u). pose proof (P2 ta g s). unfold whole_frame in La. lia.
    + rewrite <- (elab_aimed ndn (w_a0 w g) g c1 o1 tab1 E1). exact Tr.
  - injection B as <- <- <- _. apply Blk in C. discriminate.
Qed.

Definition up_uids_ndn (ns : list note) : list Z :=
  flat_map (fun n => match n with NUp _ _ u _ p => if p =? ndn then [u] else [] | _ => [] end) ns.
Lemma up_gets : forall tab (fns : list (fnote note)), gots fns = gets sat_up ndn tab (net_notes fns) ->
  all_got fns = map (block_of tab) (up_uids_ndn (net_notes fns)).
Proof.
  intros tab fns E. assert (A : all_got fns = map snd (gots fns)).
  { clear. induction fns as [|[n|t r b] fns IH]; [reflexivity|exact IH|]. exact (f_equal (cons b) IH). }
  rewrite A, E. clear. generalize (net_notes fns). induction l as [|n l IH]; [reflexivity|]. unfold gets, up_uids_ndn in *. cbn [flat_map]. rewrite !map_app, IH. f_equal.
  destruct n as [| | |t s u src p]; try reflexivity. cbn [sat_up]. destruct (p =? ndn); reflexivity.
Qed.
Lemma up_uids_once : forall ns, (forall u, (ups u ns <= 1)%nat) -> NoDup (up_uids_ndn ns).
Proof.
  intros ns H. apply (NoDup_count_occ Z.eq_dec). intros u. specialize (H u). etransitivity; [|exact H]. clear H. unfold ups, up_uids_ndn.
  induction ns as [|n ns IH]; [cbn; lia|]. cbn [flat_map filter]. rewrite count_occ_app. destruct n as [| | |t s v src p]; cbn [count_occ Nat.add]; try exact IH.
  destruct (Z.eqb_spec v u) as [->|Ne]; cbn [length].
  - destruct (p =? ndn); cbn [count_occ]; [destruct (Z.eq_dec u u); [|congruence]|]; lia.
  - destruct (p =? ndn); cbn [count_occ]; [destruct (Z.eq_dec v u); [congruence|]|]; lia.
Qed.

Lemma up_once : one_copy w -> forall cs fw fns, up_good w ndn cs -> up_calls w rx m0 ndn cs = Some (Ok (fw, fns)) ->
  exists rest, Permutation (all_got fns ++ rest) (blocks_sent cs).
Proof.
  intros One cs fw fns G R. destruct (up_faces cs _ G R) as (fw' & fns' & ops & tab & Eq & I). injection Eq as <- <-.
  pose proof (fi_elab _ _ _ _ _ _ _ _ _ _ _ I) as E. pose proof (fi_once _ _ _ _ _ _ _ _ _ _ _ I) as Nd. pose proof (fi_run _ _ _ _ _ _ _ _ _ _ _ I) as Rn.
  rewrite (up_gets tab fns (fi_got _ _ _ _ _ _ _ _ _ _ _ I)), (elab_blocks _ _ _ _ _ _ E).
  destruct (sub_blocks tab (up_uids_ndn (net_notes fns)) Nd) as (rest & P & _); [| |eauto].
  - apply up_uids_once. intros u. rewrite up_run_n in Rn.
    pose proof (at_most_once M w rx m0 ops _ _ u Pw One Si ltac:(rewrite (up_uids _ _ _ _ E); exact Nd) Rn). lia.
  - intros u Hu. unfold up_uids_ndn in Hu. apply in_flat_map in Hu. destruct Hu as (n & Hi & Hu). destruct n as [| | |t s v src p]; try contradiction.
    destruct (Z.eqb_spec p ndn) as [->|]; [|contradiction]. destruct Hu as [->|[]]. eapply up_net_blocks; eauto. reflexivity.
Qed.
End Single.

(** * C69, uplink *)

(** Nothing fails if stations are pointed at satellites that are there; what a face of a satellite gets was sent, not later, by a face
    of a station that pointed at this satellite when it was sent.  If the MAC does not send replicas, no block is got more often than it was sent, by all
    satellites together. *)
Definition up_honest {M} (w : network) (rx : mac_rx M) (m0 : M) : Prop := forall ndn cs r, is_u16 ndn -> apart ndn cs -> aims w cs -> up_calls w rx m0 ndn cs = Some r ->
  exists fw fns, r = Ok (fw, fns) /\
    (forall t s b, In (FGot t s b) fns -> exists c1 t0 g c2, cs = c1 ++ FSend t0 g b :: c2 /\ t0 <= t /\
       get_satellite_addr (w_host w) (w_con w) (aimed (w_a0 w g) g c1) = Ok (Some s)) /\
    (one_copy w -> exists rest, Permutation (all_got fns ++ rest) (blocks_sent cs)).

Lemma single_up_honest : forall M (w : network) (rx : mac_rx M) m0, proper w -> enough_slots w -> single rx -> rx_total rx -> up_honest w rx m0.
Proof.
  intros M w rx m0 P Es Si To ndn cs r Hn Ap Ai R. assert (G : up_good w ndn cs) by (split; assumption).
  destruct (up_got w rx m0 ndn P Es Si To cs r G R) as (fw & fns & -> & A). exists fw, fns. split; [reflexivity|]. split; [exact A|].
  intros One. exact (up_once w rx m0 ndn P Es Si To One cs fw fns G R).
Qed.

Theorem uplink_faces_none : forall w : network, proper w -> enough_slots w -> up_honest w none_mac tt.
Proof. intros w P Es. apply single_up_honest; [exact P|exact Es|apply always_single, none_always|apply none_total]. Qed.
Print Assumptions uplink_faces_none.

Theorem uplink_faces_aloha : forall (w : network) below garbage, proper w -> enough_slots w -> up_honest w (aloha_mac below) (aloha_init garbage).
Proof. intros w below g0 P Es. apply single_up_honest; [exact P|exact Es|apply aloha_single|apply aloha_total]. Qed.
Print Assumptions uplink_faces_aloha.

(** ** Nothing is lost *)
Lemma no_drops : forall M (w : network) (rx : mac_rx M) ops y y' ns, (forall t u g s, w_success w t u g s = true) ->
  y_run (w_host w) (w_con w) (w_tx w) (w_rate w) (w_delay w) (w_loss w) (w_success w) (w_addr w) (w_fits w) (w_mac w) rx y ops = Some (Ok (y', ns)) ->
  forall t g u, ~ In (NDrop t g u) ns.
Proof.
  intros M w rx ops y y' ns Su R.
  assert (Air : forall (y : sys (M := M)) t g j y' ns, go_air (w_host w) (w_con w) (w_tx w) (w_rate w) (w_delay w) (w_loss w) (w_success w) (w_addr w) (w_fits w) (w_mac w) y t g j = Ok (y', ns) ->
    forall t g u, ~ In (NDrop (t) g u) ns).
  { clear - Su. intros y t g j y' ns H t' g' u' Hi. unfold go_air in H. destruct (job_index j _) as [k|]; [|discriminate].
    destruct (on_ground _ _ y g (GMac k)) as [[[d ev]| | |]|]; try discriminate. unfold transmit2sat in H. cbn [gs_con] in H.
    destruct (get_satellite_addr _ _ _) as [[s|]| | |]; cbn [rbind] in H; try discriminate. unfold gs_succeeds in H. rewrite Su in H. cbn [rbind] in H.
    injection H as _ <-. destruct Hi as [Hi|[]]. discriminate. }
  assert (Call : forall (y : sys (M := M)) t g o y' ns, ground_call (w_host w) (w_con w) (w_tx w) (w_rate w) (w_delay w) (w_loss w) (w_success w) (w_addr w) (w_fits w) (w_mac w) y t g o = Ok (y', ns) ->
    forall t g u, ~ In (NDrop t g u) ns).
  { clear - Air. intros y t g o y' ns H t' g' u' Hi. unfold ground_call in H. destruct (on_ground _ _ y g o) as [[[d ev]| | |]|]; try discriminate. cbn [rbind] in H.
    destruct (to_mac ev) as [u|]; [|injection H as _ <-; destruct Hi as [Hi|[]]; discriminate].
    destruct (hand_over _ _ _ _ _ _ _ _ _ _ _ t g u) as [[y2 n2]| | |] eqn:Ho; try discriminate. cbn [rbind] in H. injection H as _ <-. destruct Hi as [Hi|Hi]; [discriminate|].
    unfold hand_over in Ho. destruct (find_tag u _) as [tag|]; [|discriminate]. destruct (w_mac w) as [|slot|slot slots replicas].
    - exact (Air _ _ _ _ _ _ Ho _ _ _ Hi).
    - destruct (air_times _ _ _ _) as [l| | |]; try discriminate. cbn [rbind] in Ho. injection Ho as _ <-. destruct Hi.
    - destruct (air_times _ _ _ _) as [l| | |]; try discriminate. cbn [rbind] in Ho. injection Ho as _ <-. destruct Hi. }
  revert y y' ns R. induction ops as [|o ops IH]; intros y y' ns R t g u Hi; cbn [y_run] in R; [injection R as <- <-; destruct Hi|].
  destruct (y_step _ _ _ _ _ _ _ _ _ _ rx y o) as [[[y1 n1]| | |]|] eqn:S; try discriminate.
  destruct (y_run _ _ _ _ _ _ _ _ _ _ rx y1 ops) as [[[y2 n2]| | |]|] eqn:R2; try discriminate. injection R as <- <-.
  apply in_app_or in Hi. destruct Hi as [Hi|Hi]; [|exact (IH _ _ _ R2 _ _ _ Hi)]. destruct o as [t' g' v p|t' g' a|t' g' p|]; cbn [y_step] in S.
  1, 2, 3: unfold call_at in S; destruct (_ && _); [|discriminate]; apply some_inj in S; exact (Call _ _ _ _ _ _ S _ _ _ Hi).
  destruct (y_queue y) as [|[t' e] q]; [discriminate|]. apply some_inj in S. destruct e as [g' j|g' j|s v r src proto pow|s x src proto].
  - exact (Air _ _ _ _ _ _ S _ _ _ Hi).
  - destruct (job_index _ _); [|discriminate]. exact (Call _ _ _ _ _ _ S _ _ _ Hi).
  - unfold arrive in S. injection S as _ <-. destruct Hi as [Hi|[]]. discriminate.
  - unfold finish in S. destruct (mac_finish rx _ x) as [[m up]| | |]; try discriminate. cbn [rbind] in S. injection S as _ <-. destruct Hi as [Hi|Hi]; [discriminate|].
    apply in_map_iff in Hi. destruct Hi as (z & Hi & _). discriminate.
Qed.

Lemma g_accepts : forall fits copies (Fi : forall q u, fits q u = true) ops d d' ev u p, g_run fits copies d ops = Some (Ok (d', ev)) ->
  In (GSend u p) ops -> In u (accepted ev).
Proof.
  intros fits copies Fi. induction ops as [|o ops IH]; intros d d' ev u p R H; [destruct H|]. cbn [g_run] in R.
  destruct (g_step fits copies d o) as [[[d1 e1]| | |]|] eqn:S; try discriminate. destruct (g_run fits copies d1 ops) as [[[d2 e2]| | |]|] eqn:R2; try discriminate. injection R as <- <-.
  unfold accepted. rewrite flat_map_app. apply in_or_app. destruct H as [->|H]; [left|right; eapply IH; eauto].
  cbn [g_step] in S. apply some_inj in S. unfold g_send in S. destruct (find_tag u _); [discriminate|]. rewrite Fi in S.
  destruct (g_busy d); [injection S as <- <-; left; reflexivity|]. destruct (g_transmit_start _ _) as [[d3 e3]| | |]; try discriminate. injection S as <- <-. left. reflexivity.
Qed.

(** The trivial MAC, queues with room, no losses: when all is quiet, the faces of the satellites have got every block, each once. *)
Theorem uplink_faces_all : forall (w : network) ndn cs fw fns, proper w -> one_copy w -> is_u16 ndn -> apart ndn cs -> aims w cs ->
  up_calls w none_mac tt ndn cs = Some (Ok (fw, fns)) -> y_queue (fw_net fw) = [] ->
  (forall j q u, w_fits w j q u = true) -> (forall t u g s, w_success w t u g s = true) ->
  Permutation (all_got fns) (blocks_sent cs).
Proof.
  intros w ndn cs fw fns P One Hn Ap Ai R Q Fi Su. assert (G : up_good w ndn cs) by (split; assumption).
  assert (Es : enough_slots w) by (unfold enough_slots, one_copy in *; destruct (w_mac w); tauto).
  destruct (up_faces w none_mac tt ndn P Es (always_single _ _ none_always) none_total cs _ G R) as (fw' & fns' & ops & tab & Eq & I). injection Eq as <- <-.
  pose proof (fi_elab _ _ _ _ _ _ _ _ _ _ _ I) as E. pose proof (fi_once _ _ _ _ _ _ _ _ _ _ _ I) as Nd. pose proof (fi_run _ _ _ _ _ _ _ _ _ _ _ I) as Rn. rewrite up_run_n in Rn.
  assert (Ns : NoDup (sent_uids ops)) by (rewrite (up_uids _ _ _ _ E); exact Nd). set (ns := net_notes fns) in *.
  rewrite (up_gets ndn tab fns (fi_got _ _ _ _ _ _ _ _ _ _ _ I)), (elab_blocks _ _ _ _ _ _ E). fold ns.
  rewrite (keys_blocks tab Nd). apply Permutation_map. apply NoDup_Permutation.
  - apply up_uids_once. intros u. pose proof (uplink_at_most_once_none w ops _ ns u P One Ns Rn). lia.
  - unfold block_keys. clear - Nd. induction tab as [|[u hs] tab IH]; [constructor|]. cbn [map fst] in Nd. inversion Nd as [|? ? N1 N2]; subst. cbn [flat_map fst snd].
    assert (Sub : forall v, In v (flat_map (fun e : Z * list header => match snd e with Block _ :: _ => [fst e] | _ => [] end) tab) -> In v (map fst tab)).
    { clear. intros v H. apply in_flat_map in H. destruct H as ([x hs] & Hx & H). cbn in H. destruct hs as [|[b|] hs]; try contradiction. destruct H as [->|[]].
      apply in_map_iff. exists (v, Block b :: hs). auto. }
    destruct hs as [|[b|] hs]; cbn [app]; auto. constructor; auto.
  - intros u. split; intros H.
    + unfold up_uids_ndn in H. apply in_flat_map in H. destruct H as (n & Hi & H). destruct n as [| | |t s v src p]; try contradiction.
      destruct (Z.eqb_spec p ndn) as [->|]; [|contradiction]. destruct H as [->|[]].
      destruct (up_net_blocks w none_mac tt ndn P (always_single _ _ none_always) cs ops tab _ ns (NUp t s u src ndn) t s u E G Nd Rn Hi eq_refl) as [b Hb].
      unfold block_keys. apply in_flat_map. eexists. split; [exact Hb|]. left. reflexivity.
    + unfold block_keys in H. apply in_flat_map in H. destruct H as ([v hs] & Hb & H). cbn [fst snd] in H. destruct hs as [|[b|] hs]; try contradiction. destruct H as [->|[]].
      destruct (elab_in _ _ _ _ _ _ E _ _ Hb) as [(t & g & b' & _ & _ & Ho)|(t & g & p & Ef & _)]; [|discriminate].
      destruct (network_refines_parts _ w none_mac tt ops _ ns P Rn) as (Ha & _ & Gr & _).
      assert (Hs : exists p, In (GSend u p) (station_ops g ns) /\ p = ndn).
      { assert (Hk : In (t, g, GSend u ndn) (happened ns)) by (rewrite Ha; unfold asked; apply in_flat_map; eexists; split; [exact Ho|left; reflexivity]).
        unfold happened in Hk. apply in_flat_map in Hk. destruct Hk as (n & Hi & Hk). destruct n as [t1 g1 o1 ev1| | |]; try contradiction.
        assert (E1 : (t1, g1, o1) = (t, g, GSend u ndn)) by (destruct o1; try contradiction; destruct Hk as [Hk|[]]; exact Hk). injection E1 as -> -> ->.
        exists ndn. split; [|reflexivity]. unfold station_ops. apply in_flat_map. eexists. split; [exact Hi|]. cbn. rewrite Nat.eqb_refl. left. reflexivity. }
      destruct Hs as (p & Hs & ->). pose proof (g_accepts _ _ (Fi g) _ _ _ _ _ _ (Gr g) Hs) as Hac.
      pose proof (uplink_exact_none w ops _ ns g u P Ns Rn Q Hac) as Ex.
      assert (L0 : lost u ns = 0%nat).
      { unfold lost. pose proof (no_drops _ w none_mac ops _ _ ns Su Rn) as Nd'. clear - Nd'. induction ns as [|n l IH]; [reflexivity|]. cbn [filter].
        assert (forall t g v, ~ In (NDrop t g v) l) by (intros t g v H; apply (Nd' t g v); right; exact H). destruct n as [|t g v| |]; auto.
        exfalso. apply (Nd' t g v). left. reflexivity. }
      assert (C1 : copies (w_mac w) g u = 1%nat) by (unfold one_copy, copies in *; destruct (w_mac w); tauto).
      assert (Hup : exists t' s' src p', In (NUp t' s' u src p') ns).
      { assert (Nz : ups u ns <> 0%nat) by lia. unfold ups in Nz. destruct (filter _ ns) as [|n l] eqn:Fl; [cbn in Nz; congruence|].
        assert (Hn' : In n (filter (fun n => match n with NUp _ _ v _ _ => v =? u | _ => false end) ns)) by (rewrite Fl; left; reflexivity).
        apply filter_In in Hn'. destruct Hn' as [Hi Hv]. destruct n as [| | |t' s' v src p']; try discriminate. apply Z.eqb_eq in Hv. subst v. eauto. }
      destruct Hup as (t' & s' & src & p' & Hi). destruct (uplink_provenance_none w ops _ ns P Ns Rn _ _ _ _ _ Hi) as (o1 & t0 & g' & q & o2 & Eo & _ & _ & Ep & _).
      assert (Hq : In (YSend t0 g' u q) ops) by (rewrite Eo; apply in_or_app; right; left; reflexivity).
      destruct (up_sends ndn cs ops tab E _ _ _ _ Hq) as [(b2 & _ & _ & ->)|[Hf _]].
      * unfold up_uids_ndn. apply in_flat_map. eexists. split; [exact Hi|]. rewrite Ep. unfold u16. rewrite Z.mod_small by exact Hn. rewrite Z.eqb_refl. left. reflexivity.
      * exfalso. assert (Some [Foreign] = Some (Block b :: hs)); [|discriminate]. rewrite <- (in_find _ _ _ _ Nd Hf). apply in_find; assumption.
Qed.
Print Assumptions uplink_faces_all.

(** Station 0 sends blocks 70 and 71 to satellite 7, station 1 block 80 to satellite 7, and after turning block 81 to satellite 8;
    another program sends a packet. *)
Definition face_up : network :=
  mkNet LittleEndian small_con (fun r u => 10) (fun _ => 1) (fun _ g s => 100 + Z.of_nat g) (fun _ p _ _ => p - 20)
    (fun _ u _ _ => true) (fun g => 1000 + Z.of_nat g) (fun _ q _ => true) TxNone (fun _ => sat_make LittleEndian 1 1 0) (fun _ => 30).
Example uplink_faces_case :
  match up_calls face_up none_mac tt 30000
    ([FSend 0 0 70; FSend 0 0 71; FRaw 1 0 2048; FSend 3 1 80; FDo (UTurn 4 1 (sat_make LittleEndian 1 0 1)); FSend 5 1 81] ++ repeat (FDo UNext) 15) with
  | Some (Ok (w, fns)) => y_queue (fw_net w) = [] /\ got_at 7 fns = [70; 80; 71] /\ got_at 8 fns = [81]
  | _ => False
  end.
Proof. vm_compute. repeat split. Qed.
