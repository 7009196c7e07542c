(** Counting blocks in a network of inter-satellite links used by faces only. *)
From Coq Require Import ZArith List Lia Bool Arith Permutation Sorted.
From Verif Require Import Base SatAddrModel DeviceModel DeviceSpec DeviceProofs ChannelModel LinkModel LinkSpec LinkProofs LinkDevices
  IslNetSpec IslNetProps IslCount FaceModel FaceSpec FaceProofs FaceNetSpec FaceDownProps FaceIslProps IslModel GeoTagModel RelayModel RelaySpec.
Import ListNotations.
Open Scope Z_scope.

Definition sent_blocks (cs : list (fcall unit)) : list (Z * nat * Z) := flat_map (fun c => match c with FSend t i b => [(t, i, b)] | _ => [] end) cs.
Definition calls_next (cs : list (fcall unit)) : nat := length (filter (fun c => match c with FDo _ => true | _ => false end) cs).

Section Blocks.
Variable w : islnet.
Variable ndn : Z.
Hypothesis Ln : w_linked w.
Hypothesis Hn : is_u16 ndn.
Local Notation elab := (elab (O := lop) (X := unit) LSend isl_do ndn).
Local Notation f_inv := (f_inv (isl_l_step w) LSend isl_do link_up ndn (l_init (fun _ => tt))).

Lemma only_one_kind : forall cs : list (fcall unit), ndn_only cs -> one_kind ndn cs.
Proof. intros cs H i. left. intros t p. apply H. Qed.

Lemma elab_pairs : forall cs ops tab, elab cs ops tab -> NoDup (map fst tab) -> ndn_only cs ->
  map (fun x => (fst x, block_of tab (snd x))) (sent_pairs ops) = map (fun x => (snd (fst x), snd x)) (sent_blocks cs).
Proof.
  intros cs ops tab E. induction E as [|cs ops tab t i b v E IH|cs ops tab t i p v E IH|cs ops tab x E IH]; intros Nd Oy; [reflexivity| | |];
    unfold sent_pairs, sent_blocks in *; rewrite !flat_map_app, !map_app.
  - assert (Oy' : ndn_only cs) by (intros t' i' p' H; apply (Oy t' i' p'); apply in_or_app; auto).
    assert (Nd0 : NoDup (map fst tab)).
    { rewrite map_app in Nd. clear - Nd. induction (map fst tab) as [|x l IH]; [constructor|]. cbn in Nd. inversion Nd as [|? ? A B]; subst.
      constructor; [|auto]. intros C. apply A. apply in_or_app. auto. }
    rewrite <- (IH Nd0 Oy'). f_equal.
    + apply map_ext_in. intros [j u] Hj. cbn [fst snd]. f_equal. pose proof (block_of_more tab [(v, [Block b])] [u] Nd) as M. cbn in M.
      assert (Hu : incl [u] (map fst tab)).
      { intros u' [<-|[]]. rewrite <- (elab_keys LSend isl_do ndn link_send (fun _ _ _ _ => eq_refl) (fun _ => eq_refl) cs ops tab E), link_all_keys.
        apply in_flat_map in Hj. destruct Hj as (o & Ho & Hj). apply in_flat_map. exists o. split; [exact Ho|]. destruct o; try contradiction. destruct Hj as [[= <- <-]|[]]. left. reflexivity. }
      specialize (M Hu). congruence.
    + cbn [flat_map app map fst snd]. unfold block_of. rewrite (in_find _ v [Block b] (tab ++ [(v, [Block b])]) Nd); [reflexivity|]. apply in_or_app. right. left. reflexivity.
  - exfalso. apply (Oy t i p). apply in_or_app. right. left. reflexivity.
  - cbn [flat_map map]. rewrite app_nil_r. rewrite IH; [cbn; rewrite app_nil_r; reflexivity|exact Nd|].
    intros t' i' p' H. apply (Oy t' i' p'). apply in_or_app. auto.
Qed.

Lemma elab_nexts : forall cs ops tab, elab cs ops tab -> calls_next cs = nexts ops /\ (ndn_only cs -> length (sent_pairs ops) = length (sent_blocks cs)).
Proof.
  intros cs ops tab E. induction E as [|cs ops tab t i b v E [IH1 IH2]|cs ops tab t i p v E [IH1 IH2]|cs ops tab x E [IH1 IH2]]; [split; reflexivity| | |];
    unfold calls_next, nexts, sent_pairs, sent_blocks in *; rewrite !filter_app, !flat_map_app, !app_length, IH1; (split; [reflexivity|]); intros Oy.
  - rewrite IH2; [reflexivity|]. intros t' i' p' H. apply (Oy t' i' p'). apply in_or_app. auto.
  - exfalso. apply (Oy t i p). apply in_or_app. right. left. reflexivity.
  - rewrite IH2; [reflexivity|]. intros t' i' p' H. apply (Oy t' i' p'). apply in_or_app. auto.
Qed.

Lemma all_ndn : forall cs ops tab y ns s, elab cs ops tab -> ndn_only cs -> w_run w ops = Some (Ok (y, ns)) -> In s (sendings ns) ->
  sd_proto s = ndn /\ exists t b, In (sd_uid s, [Block b]) tab /\ In (FSend t (sd_from s) b) cs /\ t <= sd_time s.
Proof.
  intros cs ops tab y ns s E Oy R Hs. destruct (isl_aired w Ln ops y ns s R Hs) as [_ (t & u & p & Ho & Ep)].
  assert (P : sd_proto s = ndn).
  { destruct (isl_sends ndn cs ops tab E _ _ _ _ Ho) as [(b & _ & _ & ->)|[_ Hf]]; [|exfalso; exact (Oy _ _ _ Hf)]. rewrite Ep. unfold u16. apply Z.mod_small. exact Hn. }
  split; [exact P|]. exact (isl_ndn_frame w ndn Ln cs ops tab y ns s E (only_one_kind cs Oy) R Hs P).
Qed.

(** A block that a face gets was sent by the face at the other end, a transmission and a propagation earlier. *)
Lemma got_from : forall cs fw fns t r b, ndn_only cs -> isl_calls w ndn cs = Some (Ok (fw, fns)) -> In (FGot t r b) fns ->
  exists t0 t1 u, In (FSend t0 (w_peer w r) b) cs /\ t0 <= t1 /\ t = t1 + w_delay w t1 (w_peer w r) r + w_tx w (w_rate w (w_peer w r)) u.
Proof.
  intros cs fw fns t r b Oy R H. pose proof (only_one_kind cs Oy) as G. destruct (isl_faces w ndn cs _ Ln Hn G R) as (fw' & fns' & ops & tab & Eq & I). injection Eq as <- <-.
  pose proof (fi_elab _ _ _ _ _ _ _ _ _ _ _ I) as E. pose proof (fi_once _ _ _ _ _ _ _ _ _ _ _ I) as Nd. pose proof (fi_run _ _ _ _ _ _ _ _ _ _ _ I) as Rn.
  edestruct (got_up (isl_l_step w) LSend isl_do link_up ndn (l_init (fun _ => tt)) (one_kind ndn)) as (n & u & Hi & U & Hb); [apply isl_net_blocks; assumption|exact I|exact G|exact H|].
  rewrite isl_run_n in Rn. destruct n as [| | | |t' f]; try discriminate. cbn in U. injection U as -> <- <- Ep.
  destruct (up_sending w Ln _ _ _ _ _ Rn Hi) as (s & Hs & Ef & Et). destruct (all_ndn cs ops tab _ _ s E Oy Rn Hs) as (_ & t0 & b' & Hb' & Hf & Le).
  assert (Eb : b = b').
  { assert (Some [Block b] = Some [Block b']); [|congruence]. rewrite <- (in_find _ _ _ _ Nd Hb). apply in_find; [exact Nd|]. rewrite Ef. exact Hb'. }
  subst b'. exists t0, (sd_time s), (sd_uid s). rewrite Et, Ef. cbn [w_frame fl_to fl_arr fl_lasts]. rewrite (ws_peer w Ln). auto.
Qed.

Definition lost_pairs (ns : list (knote unit)) : list (nat * Z) := map (fun x => (snd (fst x), snd x)) (dropped ns) ++ refused_pairs ns.

(** Every block sent is got once at the other end, lost, or under way. *)
Lemma blocks_account : forall cs fw fns, ndn_only cs -> isl_calls w ndn cs = Some (Ok (fw, fns)) ->
  exists tab way, (forall u hs, In (u, hs) tab -> find_tag u (fw_heap fw) = Some hs) /\ NoDup (map fst tab) /\
    (forall x, In x (lost_pairs (net_notes fns)) -> exists b, In (snd x, [Block b]) tab) /\
    (l_queue (fw_net fw) = [] -> way = []) /\
    Permutation (map (fun x => (snd (fst x), snd x)) (gots fns) ++ way ++ map (fun x => (w_peer w (fst x), block_of tab (snd x))) (lost_pairs (net_notes fns)))
      (map (fun x => (w_peer w (snd (fst x)), snd x)) (sent_blocks cs)).
Proof.
  intros cs fw fns Oy R. pose proof (only_one_kind cs Oy) as G. destruct (isl_faces w ndn cs _ Ln Hn G R) as (fw' & fns' & ops & tab & Eq & I). injection Eq as <- <-.
  pose proof (fi_elab _ _ _ _ _ _ _ _ _ _ _ I) as E. pose proof (fi_once _ _ _ _ _ _ _ _ _ _ _ I) as Nd. pose proof (fi_run _ _ _ _ _ _ _ _ _ _ _ I) as Rn.
  pose proof (fi_tab _ _ _ _ _ _ _ _ _ _ _ I) as Tb. pose proof (fi_got _ _ _ _ _ _ _ _ _ _ _ I) as Go. rewrite isl_run_n in Rn. set (ns := net_notes fns) in *.
  destruct (isl_network_conserves w ops _ ns Ln Rn) as (_ & _ & _ & Dr & Pe & _). destruct (isl_accounts w Ln ops _ ns Rn) as (waiting & Pa & Wq).
  set (key := fun x : nat * Z => (w_peer w (fst x), block_of tab (snd x))).
  assert (Gf : map (fun x => (snd (fst x), snd x)) (gots fns) = map (fun f => (fl_to f, block_of tab (fl_uid f))) (passed ns)).
  { assert (Hp : forall t f, In (KUp t f) ns -> fl_proto f = ndn).
    { intros t f H. destruct (up_sending w Ln _ _ _ _ _ Rn H) as (s & Hs & -> & _). apply (all_ndn cs ops tab _ _ s E Oy Rn Hs). }
    rewrite Go. clear - Hp. induction ns as [|n l IH]; [reflexivity|]. change (n :: l) with ([n] ++ l). unfold gets, passed in *. rewrite !flat_map_app, !map_app.
    rewrite IH by (intros; eapply Hp; right; eassumption). f_equal. destruct n as [| | | |t f]; try reflexivity. cbn [flat_map link_up app].
    rewrite (Hp t f (or_introl eq_refl)), Z.eqb_refl. reflexivity. }
  set (inflight := map (fun f => (fl_to f, block_of tab (fl_uid f))) (arriving (l_queue (fw_net fw)) ++ flying (l_queue (fw_net fw)))).
  assert (Ai : Permutation (map (fun x => (snd (fst x), snd x)) (gots fns) ++ inflight ++ map key (map (fun x => (snd (fst x), snd x)) (dropped ns))) (map key (aired_pairs ns))).
  { rewrite Gf. unfold inflight. rewrite app_assoc, <- map_app. rewrite (Permutation_map _ Pe), Dr. unfold aired_pairs. rewrite !map_map. cbn [w_frame fl_to fl_uid fst snd].
    clear. induction (sendings ns) as [|s l IH]; [constructor|]. cbn [filter map]. unfold key at 2. cbn [fst snd]. destruct (w_reaches w s); cbn [negb map app].
    - constructor. exact IH.
    - rewrite <- Permutation_middle. constructor. exact IH. }
  exists tab, (inflight ++ map key waiting). split; [exact Tb|]. split; [exact Nd|]. split; [|split].
  - intros [i u] H. cbn [snd].
    assert (Hs : In (i, u) (sent_pairs ops)).
    { apply (Permutation_in _ Pa). unfold lost_pairs in H. apply in_app_or in H. destruct H as [H|H]; [|apply in_or_app; right; apply in_or_app; right; exact H].
      apply in_or_app. left. rewrite Dr in H. rewrite map_map in H. cbn [fst snd] in H. apply in_map_iff in H. destruct H as (s & Es & Hs). apply filter_In in Hs.
      unfold aired_pairs. apply in_map_iff. exists s. split; [exact Es|apply Hs]. }
    apply in_flat_map in Hs. destruct Hs as (o & Ho & Hs). destruct o as [t j v p| |]; try contradiction. destruct Hs as [[= <- <-]|[]].
    destruct (isl_sends ndn cs ops tab E _ _ _ _ Ho) as [(b & Hb & _)|[_ Hf]]; [eauto|exfalso; exact (Oy _ _ _ Hf)].
  - intros Q. rewrite (Wq Q). unfold inflight. rewrite Q. reflexivity.
  - assert (El : map (fun x => (w_peer w (snd (fst x)), snd x)) (sent_blocks cs) = map key (sent_pairs ops)).
    { pose proof (elab_pairs cs ops tab E Nd Oy) as M. apply (f_equal (map (fun x => (w_peer w (fst x), snd x)))) in M. rewrite !map_map in M. cbn [fst snd] in M. symmetry. exact M. }
    rewrite El, <- (Permutation_map key Pa), !map_app, <- Ai. unfold lost_pairs. rewrite map_app. fold key. rewrite <- !app_assoc. apply Permutation_app_head. apply Permutation_app_head.
    rewrite !app_assoc. apply Permutation_app_tail. apply Permutation_app_comm.
Qed.

Lemma blocks_events : forall cs fw fns, ndn_only cs -> isl_calls w ndn cs = Some (Ok (fw, fns)) -> (calls_next cs <= 3 * length (sent_blocks cs))%nat.
Proof.
  intros cs fw fns Oy R. destruct (isl_faces w ndn cs _ Ln Hn (only_one_kind cs Oy) R) as (fw' & fns' & ops & tab & Eq & I). injection Eq as <- <-.
  pose proof (fi_elab _ _ _ _ _ _ _ _ _ _ _ I) as E. pose proof (fi_run _ _ _ _ _ _ _ _ _ _ _ I) as Rn. rewrite isl_run_n in Rn.
  destruct (elab_nexts cs ops tab E) as [E1 E2]. rewrite E1, <- (E2 Oy). exact (isl_events w Ln ops _ _ Rn).
Qed.
End Blocks.
