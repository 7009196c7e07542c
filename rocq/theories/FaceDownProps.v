(** Faces on the downlink. *)
From Coq Require Import ZArith List Lia Bool Arith Permutation Sorted.
From Verif Require Import Base SatAddrModel DeviceModel DeviceSpec DeviceProofs ChannelModel LinkModel LinkSpec LinkProofs LinkDevices
  DownSpec DownProofs DownProps FaceModel FaceSpec FaceProofs FaceNetSpec.
Import ListNotations.
Open Scope Z_scope.

Lemma link_run_n : forall F step dur spread (hears : F -> nat -> bool) ops y,
  n_run (l_step step dur spread hears) y ops = l_run step dur spread hears y ops.
Proof. reflexivity. Qed.
Lemma down_run_n : forall d ops, n_run (down_l_step d) (l_init (v_a0 d)) ops = v_run d ops.
Proof. intros. apply link_run_n. Qed.

Section Down.
Variable d : downlink.
Variable ndn : Z.
Hypothesis Sn : v_sane d.
Local Notation elab := (elab (O := lop) (X := down_other) LSend down_do ndn).

Lemma good_prefix_down : forall cs c, down_good d ndn (cs ++ [c]) -> down_good d ndn cs.
Proof. intros cs c [A B]. split; [intros t i p H; apply (A t i p)|intros t g a H; apply (B t g a)]; apply in_or_app; left; exact H. Qed.

Lemma elab_given : forall cs ops tab, elab cs ops tab -> given ops = map fst tab.
Proof.
  unfold given. induction 1 as [|cs ops tab t i b v E IH|cs ops tab t i p v E IH|cs ops tab x E IH]; [reflexivity| | |]; rewrite !flat_map_app, ?map_app, IH;
    cbn; rewrite ?app_nil_r; try reflexivity. destruct x; cbn; rewrite app_nil_r; reflexivity.
Qed.
Lemma elab_turns : forall cs ops tab, elab cs ops tab -> down_good d ndn cs -> v_turns d ops.
Proof.
  induction 1 as [|cs ops tab t i b v E IH|cs ops tab t i p v E IH|cs ops tab x E IH]; intros G t' g' a' H; [destruct H| | |];
    pose proof (good_prefix_down _ _ G) as G0; apply in_app_or in H; destruct H as [H|[H|[]]]; try discriminate; try (eapply IH; eauto; fail).
  destruct x as [t0 g0 a0|]; cbn in H; [|discriminate]. injection H as -> -> ->. destruct G as [_ G]. eapply G. apply in_or_app. right. left. reflexivity.
Qed.

Lemma down_net_safe : forall cs ops tab r, elab cs ops tab -> down_good d ndn cs -> NoDup (map fst tab) ->
  n_run (down_l_step d) (l_init (v_a0 d)) ops = Some r -> exists x, r = Ok x.
Proof. intros cs ops tab r E G Nd R. rewrite down_run_n in R. eapply downlink_network_safe; [exact Sn|rewrite (elab_given _ _ _ E); exact Nd|exact R]. Qed.

Hypothesis Hn : is_u16 ndn.

Lemma down_net_blocks : forall cs ops tab s ns n t r u, elab cs ops tab -> down_good d ndn cs -> NoDup (map fst tab) ->
  n_run (down_l_step d) (l_init (v_a0 d)) ops = Some (Ok (s, ns)) -> In n ns -> link_up n = Some (t, r, u, ndn) -> exists b, In (u, [Block b]) tab.
Proof.
  intros cs ops tab s ns n t r u E G Nd R Hi U. rewrite down_run_n in R. destruct n as [| | | |t' f]; try discriminate. cbn in U. injection U as -> <- <- Ep.
  destruct (downlink_provenance d ops s ns t f Sn (elab_turns _ _ _ E G) R Hi) as (t0 & p & tt & Ho & Pr & _).
  destruct (elab_send (O := lop) LSend down_do ndn link_send (fun _ _ _ _ => eq_refl) (fun x => ltac:(destruct x; reflexivity)) _ _ _ E _ _ _ _ _ Ho eq_refl) as [(b & Hb & _)|[_ Hf]].
  - eauto.
  - exfalso. destruct G as [Ap _]. apply (Ap _ _ _ Hf). congruence.
Qed.
End Down.

(** ** What one station gets *)
Lemma gets_at : forall tab ndn g F (fns : list (fnote (knote F))), gots fns = gets link_up ndn tab (net_notes fns) ->
  got_at g fns = map (block_of tab) (map fl_uid (filter (fun f => (fl_to f =? g)%nat && (fl_proto f =? ndn)) (passed (net_notes fns)))).
Proof.
  intros tab ndn g F fns E.
  assert (A : got_at g fns = flat_map (fun x => if (snd (fst x) =? g)%nat then [snd x] else []) (gots fns)).
  { clear. induction fns as [|[n|t r b] fns IH]; [reflexivity|exact IH|]. unfold got_at, gots in *. cbn [flat_map app fst snd] in *. rewrite IH. reflexivity. }
  rewrite A, E. clear. generalize (net_notes fns). induction l as [|n l IH]; [reflexivity|]. change (n :: l) with ([n] ++ l). unfold gets, passed in *.
  rewrite !flat_map_app, filter_app, !map_app, IH. f_equal. destruct n as [| | | |t f]; try reflexivity. cbn [flat_map link_up app filter].
  rewrite !app_nil_r. destruct (fl_proto f =? ndn); [|rewrite andb_false_r; reflexivity]. cbn [flat_map fst snd app]. rewrite andb_true_r, app_nil_r.
  destruct (fl_to f =? g)%nat; reflexivity.
Qed.

Lemma filter_uid : forall (key : flight -> Z) l, (forall u, (length (filter (fun f => (key f =? u)%Z) l) <= 1)%nat) -> NoDup (map key l).
Proof.
  intros key. induction l as [|x l IH]; intros H; [constructor|]. cbn [map]. constructor.
  - intros Hi. apply in_map_iff in Hi. destruct Hi as (y & Ey & Hy). specialize (H (key x)). cbn [filter] in H. rewrite Z.eqb_refl in H. cbn [length] in H.
    assert (In y (filter (fun f => key f =? key x) l)) by (apply filter_In; split; [exact Hy|apply Z.eqb_eq; exact Ey]).
    destruct (filter _ l); [contradiction|]. cbn in H. lia.
  - apply IH. intros u. specialize (H u). cbn [filter] in H. destruct (key x =? u); cbn [length] in H; lia.
Qed.

Lemma taken_arrived : forall (f : flight -> bool) (ns : list (knote sat_address)), (length (filter f (taken ns)) <= length (filter f (arrived ns)))%nat.
Proof.
  intros f. induction ns as [|n ns IH]; [reflexivity|]. change (n :: ns) with ([n] ++ ns). unfold taken, arrived in *. rewrite !flat_map_app, !filter_app, !app_length.
  enough ((length (filter f (taken [n])) <= length (filter f (arrived [n])))%nat) by (unfold taken, arrived in *; lia).
  destruct n as [| |t x [|]| |]; unfold taken, arrived; cbn; try lia. 
Qed.

Lemma passed_once : forall d (Sn : v_sane d) ops y ns g, v_run d ops = Some (Ok (y, ns)) -> v_turns d ops -> NoDup (given ops) -> NoDup (v_ground d) ->
  NoDup (map fl_uid (filter (fun f => (fl_to f =? g)%nat) (passed ns))).
Proof.
  intros d Sn ops y ns g R Wt N Ng. destruct (downlink_network_conserves d ops y ns Sn Wt R) as (Fl & _ & Ar & _).
  apply filter_uid. intros u. rewrite filter_filter.
  rewrite (filter_ext _ (about u g)) by (intros f; unfold about; apply andb_comm).
  apply (filter_perm _ (about u g)), Permutation_length in Fl. apply (filter_perm _ (about u g)), Permutation_length in Ar.
  rewrite filter_app, app_length in Fl, Ar. pose proof (taken_arrived (about u g) ns) as T.
  enough ((length (filter (about u g) (flat_map (frames_of d) (sendings ns))) <= 1)%nat) by lia. clear - Sn R N Ng.
  assert (E : forall l, filter (about u g) (flat_map (frames_of d) l) = filter (about u g) (flat_map (frames_of d) (filter (fun s => sd_uid s =? u) l))).
  { induction l as [|s l IH]; [reflexivity|]. cbn [flat_map filter]. rewrite filter_app, IH. destruct (Z.eqb_spec (sd_uid s) u) as [Eu|Ne].
    - cbn [flat_map]. rewrite filter_app. reflexivity.
    - rewrite (filter_none _ (about u g) (frames_of d s)); [reflexivity|]. intros f Hf. unfold frames_of in Hf. apply in_map_iff in Hf. destruct Hf as (x & <- & _).
      unfold about. cbn [frame_at fl_uid]. destruct (Z.eqb_spec (sd_uid s) u); [contradiction|reflexivity]. }
  rewrite E. destruct (filter (fun s => sd_uid s =? u) (sendings ns)) as [|s l] eqn:Fs; [cbn; lia|].
  assert (Hs : In s (filter (fun s => sd_uid s =? u) (sendings ns))) by (rewrite Fs; left; reflexivity). apply filter_In in Hs. destruct Hs as [Hs Eu]. apply Z.eqb_eq in Eu.
  pose proof (aired_once d Sn ops y ns s R N Hs) as One. rewrite Eu, Fs in One. injection One as ->. cbn [flat_map]. rewrite app_nil_r. unfold frames_of.
  assert (G : forall l, NoDup l -> (length (filter (about u g) (map (frame_at d s) l)) <= 1)%nat).
  { clear. induction l as [|x l IH]; intros Nd; [cbn; lia|]. inversion Nd as [|? ? N1 N2]; subst. cbn [map filter]. destruct (about u g (frame_at d s x)) eqn:A; [|auto].
    unfold about in A. cbn [frame_at fl_uid fl_to] in A. apply andb_true_iff in A. destruct A as [_ A]. apply Nat.eqb_eq in A. subst x.
    rewrite filter_none; [cbn; lia|]. intros f Hf. apply in_map_iff in Hf. destruct Hf as (x & <- & Hx). unfold about. cbn [frame_at fl_to].
    destruct (Nat.eqb_spec x g) as [->|]; [contradiction|apply andb_false_r]. }
  apply G. apply NoDup_filter. exact Ng.
Qed.

(** With room for everything, everything is accepted. *)
Definition sends_at {F} (i : nat) (ops : list (lop (F := F))) : list (Z * Z * Z) :=
  flat_map (fun o => match o with LSend t j u p => if (j =? i)%nat then [(t, u, p)] else [] | _ => [] end) ops.
Definition took (ev : list sevent) : list (Z * Z * Z) := flat_map (fun e => match e with SAccept t u p => [(t, u, p)] | _ => [] end) ev.
Definition asks (o : sop) : list (Z * Z * Z) := match o with SSend t u p => [(t, u, p)] | SComplete => [] end.

Lemma all_took : forall step (H : forall d o d' ev, step d o = Some (Ok (d', ev)) -> took ev = asks o) ops (d d' : sdev) ev,
  s_run step d ops = Some (Ok (d', ev)) -> took ev = flat_map asks ops.
Proof.
  intros step H. induction ops as [|o ops IH]; intros d d' ev R; cbn [s_run] in R; [injection R as <- <-; reflexivity|].
  destruct (step d o) as [[[d1 e1]| | |]|] eqn:S; try discriminate. destruct (s_run step d1 ops) as [[[d2 e2]| | |]|] eqn:R2; try discriminate. injection R as <- <-.
  unfold took. rewrite flat_map_app. fold (took e1) (took e2). rewrite (H _ _ _ _ S), (IH _ _ _ R2). reflexivity.
Qed.
Lemma s_took : forall fits dur (Fi : forall q u, fits q u = true) d o d' ev, s_step fits dur d o = Some (Ok (d', ev)) -> took ev = asks o.
Proof.
  intros fits dur Fi d o d' ev S.
  assert (T : forall d d' ev, s_transmit_start dur d = Ok (d', ev) -> took ev = []).
  { clear. intros d d' ev S. unfold s_transmit_start in S. destruct (s_busy d); [|discriminate]. cbn in S. destruct (s_queue d); [discriminate|].
    destruct (find_tag z (s_tags d)); [|discriminate]. injection S as <- <-. reflexivity. }
  destruct o as [t u p|]; cbn [s_step] in S.
  - destruct (_ && _); [|discriminate]. injection S as S. unfold s_send in S. destruct (find_tag u (s_tags d)); [discriminate|]. rewrite Fi in S.
    destruct (s_busy d); [injection S as <- <-; reflexivity|]. destruct (s_transmit_start dur _) as [[d2 e2]| | |] eqn:E; try discriminate. injection S as <- <-.
    cbn [took flat_map app]. fold (took e2). rewrite (T _ _ _ E). reflexivity.
  - destruct (s_pending d) as [|c l]; [discriminate|]. injection S as S. unfold s_complete in S. destruct (s_queue d); [injection S as <- <-; reflexivity|]. apply T in S. exact S.
Qed.
Lemma asked_ops : forall F (ns : list (knote F)) i ops, obeyed ns = ordered ops ->
  (forall t j o ev, In (KDev t j o ev) ns -> forall t' u p, o = SSend t' u p -> t = t') ->
  flat_map asks (dev_ops i ns) = sends_at i ops.
Proof.
  intros F ns i ops Ob Ti.
  assert (A : flat_map asks (dev_ops i ns) = flat_map (fun o => match o with OrderSend t j u p => if (j =? i)%nat then [(t, u, p)] else [] | _ => [] end) (obeyed ns)).
  { clear Ob. induction ns as [|n ns IH]; [reflexivity|]. change (n :: ns) with ([n] ++ ns). unfold dev_ops, obeyed in *.
    rewrite !flat_map_app, IH by (intros; eapply Ti; [right|]; eauto). f_equal.
    destruct n as [t j o ev| | | |]; try reflexivity. specialize (Ti t j o ev (or_introl eq_refl)). destruct o as [t' u p|].
    - rewrite (Ti _ _ _ eq_refl). cbn. destruct (j =? i)%nat; reflexivity.
    - cbn. destruct (j =? i)%nat; reflexivity. }
  rewrite A, Ob. clear. induction ops as [|o ops IH]; [reflexivity|]. change (o :: ops) with ([o] ++ ops). unfold ordered, sends_at in *.
  rewrite !flat_map_app, IH. f_equal. destruct o; reflexivity.
Qed.

Lemma link_keys_once : forall F ndn i (l : list (lop (F := F))), NoDup (all_keys link_send l) -> NoDup (keys ndn link_send i l).
Proof.
  intros F ndn i. induction l as [|o l IH]; intros N; [constructor|]. unfold all_keys in N. unfold keys. cbn [flat_map] in *.
  fold (all_keys (O := lop) (link_send (F := F)) l) in N. fold (keys ndn (link_send (F := F)) i l).
  destruct o as [t j u p| |]; cbn in N |- *; auto. inversion N as [|? ? N1 N2]; subst. destruct (_ && _); cbn; auto. constructor; auto.
  intros H. apply N1. apply (keys_in_all ndn link_send i l). exact H.
Qed.

(** * C68, downlink *)
Lemma down_faces : forall d ndn cs r, v_sane d -> is_u16 ndn -> down_good d ndn cs -> down_calls d ndn cs = Some r ->
  exists w fns ops tab, r = Ok (w, fns) /\ f_inv (down_l_step d) LSend down_do link_up ndn (l_init (v_a0 d)) cs ops tab w fns.
Proof.
  intros d ndn cs r Sn Hn G R.
  eapply (faces_inv (down_l_step d) LSend down_do link_up ndn (l_init (v_a0 d)) (down_good d ndn)); [| | |exact G|exact R].
  - apply good_prefix_down.
  - apply down_net_safe. exact Sn.
  - apply down_net_blocks; assumption.
Qed.

Lemma down_as_send : forall x : down_other, link_send (down_do x) = None.
Proof. destruct x; reflexivity. Qed.
Lemma down_sends : forall ndn cs ops tab, elab LSend down_do ndn cs ops tab -> forall t i u p, In (LSend t i u p) ops ->
  (exists b, In (u, [Block b]) tab /\ In (FSend t i b) cs /\ p = ndn) \/ (In (u, [Foreign]) tab /\ In (FRaw t i p) cs).
Proof. intros ndn cs ops tab E t i u p H. exact (elab_send LSend down_do ndn link_send (fun _ _ _ _ => eq_refl) down_as_send cs ops tab E _ t i u p H eq_refl). Qed.

(** Nothing fails, whatever faces and other programs do: a fresh packet is made for each block, so no packet is given twice
    to devices, and no face reads a packet that has no block.  What a face gets was sent by a face, not later, on the satellite its station
    tracked when the first bit came. *)
Theorem downlink_faces : forall d ndn cs r, v_sane d -> is_u16 ndn -> down_good d ndn cs -> down_calls d ndn cs = Some r ->
  exists w fns, r = Ok (w, fns) /\
    forall t g b, In (FGot t g b) fns -> In g (v_ground d) /\ exists t0 i, In (FSend t0 i b) cs /\ t0 <= t /\
      exists n1 ta f n2, net_notes fns = n1 ++ KArrive ta f true :: n2 /\ fl_to f = g /\ fl_src f = i /\ focus (v_a0 d g) g n1 = v_addr d i /\ t0 <= ta <= t.
Proof.
  intros d ndn cs r Sn Hn G R. destruct (down_faces d ndn cs r Sn Hn G R) as (w & fns & ops & tab & -> & I). exists w, fns. split; [reflexivity|].
  intros t g b H. pose proof (fi_elab _ _ _ _ _ _ _ _ _ _ _ I) as E. pose proof (fi_once _ _ _ _ _ _ _ _ _ _ _ I) as Nd. pose proof (fi_run _ _ _ _ _ _ _ _ _ _ _ I) as Rn.
  edestruct (got_up (down_l_step d) LSend down_do link_up ndn (l_init (v_a0 d)) (down_good d ndn)) as (n & u & Hi & U & Hb); [apply down_net_blocks; assumption|exact I|exact G|exact H|].
  rewrite down_run_n in Rn. destruct n as [| | | |t' f]; try discriminate. cbn in U. injection U as -> <- <- Ep.
  destruct (downlink_provenance d ops _ _ t f Sn (elab_turns d ndn _ _ _ E G) Rn Hi) as (t0 & p & tt & Ho & Pr & Le & Hg & _ & Ea & Et & n1 & n2 & En & Fo).
  split; [exact Hg|]. exists t0, (fl_src f). split; [|split].
  - destruct (down_sends ndn cs ops tab E _ _ _ _ Ho) as [(b' & Hb' & Hs & _)|[Hf _]].
    + assert (Some [Block b] = Some [Block b']) by (rewrite <- (in_find _ _ _ _ Nd Hb); apply in_find; assumption). congruence.
    + assert (Some [Block b] = Some [Foreign]) by (rewrite <- (in_find _ _ _ _ Nd Hb); apply in_find; assumption). discriminate.
  - pose proof (vs_delay d Sn tt (fl_to f) (fl_src f)). pose proof (vs_tx d Sn (v_rate d (fl_src f)) (fl_uid f)). lia.
  - exists n1, (fl_arr f), f, n2. split; [exact En|]. split; [reflexivity|]. split; [reflexivity|]. split; [exact Fo|].
    pose proof (vs_delay d Sn tt (fl_to f) (fl_src f)). pose proof (vs_tx d Sn (v_rate d (fl_src f)) (fl_uid f)). lia.
Qed.
Print Assumptions downlink_faces.

Lemma nodup_filter_map : forall (f : flight -> bool) l, NoDup (map fl_uid l) -> NoDup (map fl_uid (filter f l)).
Proof.
  intros f. induction l as [|x l IH]; intros N; [constructor|]. cbn [map] in N. inversion N as [|? ? N1 N2]; subst. cbn [filter]. destruct (f x); [|auto].
  cbn [map]. constructor; [|auto]. intros H. apply N1. apply in_map_iff in H. destruct H as (y & <- & H). apply in_map. apply filter_In in H. tauto.
Qed.
Lemma here_uids : forall d (Sn : v_sane d) ndn ops y ns g, v_run d ops = Some (Ok (y, ns)) -> v_turns d ops -> NoDup (given ops) -> NoDup (v_ground d) ->
  NoDup (map fl_uid (filter (fun f => (fl_to f =? g)%nat && (fl_proto f =? ndn)) (passed ns))).
Proof.
  intros d Sn ndn ops y ns g R Wt N Ng. rewrite <- filter_filter. apply nodup_filter_map. eapply passed_once; eauto.
Qed.

(** No face of a station gets a block more often than it was sent. *)
Theorem downlink_faces_once : forall d ndn cs w fns, v_sane d -> is_u16 ndn -> down_good d ndn cs -> NoDup (v_ground d) -> down_calls d ndn cs = Some (Ok (w, fns)) ->
  forall g, exists rest, Permutation (got_at g fns ++ rest) (blocks_sent cs).
Proof.
  intros d ndn cs w fns Sn Hn G Ng R g. destruct (down_faces d ndn cs _ Sn Hn G R) as (w' & fns' & ops & tab & Eq & I). injection Eq as <- <-.
  pose proof (fi_elab _ _ _ _ _ _ _ _ _ _ _ I) as E. pose proof (fi_once _ _ _ _ _ _ _ _ _ _ _ I) as Nd. pose proof (fi_run _ _ _ _ _ _ _ _ _ _ _ I) as Rn.
  rewrite (gets_at tab ndn g _ fns (fi_got _ _ _ _ _ _ _ _ _ _ _ I)), (elab_blocks _ _ _ _ _ _ E).
  destruct (sub_blocks tab (map fl_uid (filter (fun f => (fl_to f =? g)%nat && (fl_proto f =? ndn)) (passed (net_notes fns)))) Nd) as (rest & P & _); [| |eauto].
  - rewrite down_run_n in Rn. eapply here_uids; eauto; [eapply elab_turns; eauto|]. rewrite (elab_given _ _ _ _ E). exact Nd.
  - intros u Hu. apply in_map_iff in Hu. destruct Hu as (f & <- & Hf). apply filter_In in Hf. destruct Hf as [Hf Hp]. apply andb_true_iff in Hp. destruct Hp as [_ Hp].
    apply Z.eqb_eq in Hp. unfold passed in Hf. apply in_flat_map in Hf. destruct Hf as (n & Hi & Hf). destruct n as [| | | |t x]; cbn in Hf; try contradiction. destruct Hf as [->|[]].
    eapply down_net_blocks; eauto. cbn. rewrite Hp. reflexivity.
Qed.
Print Assumptions downlink_faces_once.

(** With room in the queues, no losses and a station that keeps to one satellite, the face of the station gets, when all is
    quiet, every block sent by the faces of that satellite, each once, and no other. *)
Theorem downlink_faces_all : forall d ndn cs w fns i g, v_sane d -> is_u16 ndn -> down_good d ndn cs -> NoDup (v_ground d) ->
  down_calls d ndn cs = Some (Ok (w, fns)) -> l_queue (fw_net w) = [] ->
  (forall j q u, v_fits d j q u = true) -> (forall t u, v_success d t u g i = true) ->
  In g (v_ground d) -> v_a0 d g = v_addr d i -> (forall t a, ~ In (FDo (DTurn t g a)) cs) -> (forall t j b, In (FSend t j b) cs -> v_addr d j = v_addr d i -> j = i) ->
  Permutation (got_at g fns) (blocks_from i cs).
Proof.
  intros d ndn cs w fns i g Sn Hn G Ng R Q Fi Su Hg Ha Nt Un. destruct (down_faces d ndn cs _ Sn Hn G R) as (w' & fns' & ops & tab & Eq & I). injection Eq as <- <-.
  pose proof (fi_elab _ _ _ _ _ _ _ _ _ _ _ I) as E. pose proof (fi_once _ _ _ _ _ _ _ _ _ _ _ I) as Nd. pose proof (fi_run _ _ _ _ _ _ _ _ _ _ _ I) as Rn. rewrite down_run_n in Rn.
  pose proof (elab_turns d ndn _ _ _ E G) as Wt. assert (Ngv : NoDup (given ops)) by (rewrite (elab_given _ _ _ _ E); exact Nd).
  assert (Ap : forall t j p, In (FRaw t j p) cs -> p <> ndn).
  { destruct G as [Ap _]. intros t j p H Eq. subst p. apply (Ap _ _ _ H). unfold u16. apply Z.mod_small. exact Hn. }
  rewrite (gets_at tab ndn g _ fns (fi_got _ _ _ _ _ _ _ _ _ _ _ I)).
  rewrite (elab_from LSend down_do ndn link_send (fun _ _ _ _ => eq_refl) down_as_send i cs ops tab E Nd Ap). apply Permutation_map.
  set (ns := net_notes fns) in *. pose proof (down_run_inv d Sn ops _ ns Rn) as Li. pose proof (down_obeys d Sn ops _ ns Rn) as Ob.
  assert (Foc : forall n1 n2, ns = n1 ++ n2 -> focus (v_a0 d g) g n1 = v_addr d i).
  { intros n1 n2 En. rewrite <- Ha. assert (Nk : forall t a, ~ In (KTurn t g a) n1).
    { intros t a H. assert (Ho : In (OrderTurn t g a) (obeyed ns)) by (rewrite En; unfold obeyed; rewrite flat_map_app; apply in_or_app; left; apply in_flat_map; eexists; split; [exact H|left; reflexivity]).
      rewrite Ob in Ho. unfold ordered in Ho. apply in_flat_map in Ho. destruct Ho as (o & Ho & H'). destruct o; cbn in H'; try contradiction; destruct H' as [H'|[]]; [discriminate|].
      injection H' as -> -> ->. apply (Nt t a). clear - E Ho. induction E as [|cs ops tab t' i b v E IH|cs ops tab t' i p v E IH|cs ops tab x E IH]; [destruct Ho| | |];
        apply in_app_or in Ho; apply in_or_app; destruct Ho as [Ho|[Ho|[]]]; auto; try discriminate.
      right. left. destruct x; [|discriminate]. cbn in Ho. congruence. }
    clear - Nk. induction n1 as [|n n1 IH]; [reflexivity|]. assert (Nk' : forall t a, ~ In (KTurn t g a) n1) by (intros t a H; apply (Nk t a); right; exact H).
    destruct n as [| | |t r x|]; cbn [focus]; auto. destruct (Nat.eqb_spec r g) as [->|]; [|auto]. exfalso. apply (Nk t x). left. reflexivity. }
  apply NoDup_Permutation.
  - eapply here_uids; eauto.
  - apply link_keys_once. rewrite (elab_keys LSend down_do ndn link_send (fun _ _ _ _ => eq_refl) down_as_send cs ops tab E). exact Nd.
  - intros u. split; intros H.
    + apply in_map_iff in H. destruct H as (f & <- & Hf). apply filter_In in Hf. destruct Hf as [Hf Hp]. apply andb_true_iff in Hp. destruct Hp as [Hto Hp].
      apply Z.eqb_eq in Hp. apply Nat.eqb_eq in Hto. unfold passed in Hf. apply in_flat_map in Hf. destruct Hf as (n & Hi & Hf). destruct n as [| | | |t x]; cbn in Hf; try contradiction. destruct Hf as [->|[]].
      destruct (downlink_provenance d ops _ _ t f Sn Wt Rn Hi) as (t0 & p & tt & Ho & Pr & _ & _ & _ & _ & _ & n1 & n2 & En & Fo). rewrite Hto in Fo.
      rewrite (Foc _ _ En) in Fo. symmetry in Fo.
      assert (Pn : p = ndn /\ fl_src f = i).
      { destruct (down_sends ndn cs ops tab E _ _ _ _ Ho) as [(b' & _ & Hs & Ep)|[_ Hf]]; [split; [exact Ep|exact (Un _ _ _ Hs Fo)]|].
        exfalso. destruct G as [A _]. apply (A _ _ _ Hf). congruence. }
      destruct Pn as [Ep Ei]. rewrite Ei in Ho. unfold keys. apply in_flat_map. exists (LSend t0 i (fl_uid f) p). split; [exact Ho|].
      cbn [link_send]. rewrite Nat.eqb_refl.
      subst p. rewrite Z.eqb_refl. left. reflexivity.
    + unfold keys in H. apply in_flat_map in H. destruct H as (o & Ho & H). destruct o as [t j v p| |]; cbn in H; try contradiction.
      destruct (Nat.eqb_spec j i) as [->|]; [|contradiction]. destruct (Z.eqb_spec p ndn) as [->|]; [|contradiction]. destruct H as [->|[]].
      assert (Hc : In (t, u, ndn) (accepts i ns)).
      { unfold accepts. fold (took (dev_events i ns)).
        rewrite (all_took _ (s_took (v_fits d i) (v_tx d (v_rate d i)) (Fi i)) _ _ _ _ (li_dev _ _ _ _ _ _ _ Li i)).
        rewrite (asked_ops _ ns i ops Ob).
        - unfold sends_at. apply in_flat_map. eexists. split; [exact Ho|]. cbn. rewrite Nat.eqb_refl. left. reflexivity.
        - intros t1 j1 o1 ev1 H1 t2 u2 p2 E2. destruct (li_air _ _ _ _ _ _ _ Li _ _ _ _ H1) as [E3 _]. symmetry. eapply E3. exact E2. }
      destruct (downlink_outcomes d ops _ ns Sn Wt Rn Ngv Ng Q i t u ndn Hc) as (s & _ & Ei & Eu & Ep & _ & At). specialize (At g Hg). rewrite Su in At.
      destruct At as (_ & n1 & ok & n2 & En & Ps). rewrite (Foc _ _ En) in Ps. destruct (sat_dec (v_addr d i) (v_addr d i)) as [_|C]; [|congruence].
      assert (Hf : In (frame_at d s g) (filter (about u g) (passed ns))) by (rewrite Ps; left; reflexivity). apply filter_In in Hf. destruct Hf as [Hf _].
      apply in_map_iff. exists (frame_at d s g). split; [cbn; exact Eu|]. apply filter_In. split; [exact Hf|]. cbn [frame_at fl_to fl_proto]. rewrite Nat.eqb_refl, Ep.
      unfold u16. rewrite Z.mod_small by exact Hn. apply Z.eqb_refl.
Qed.
Print Assumptions downlink_faces_all.

(** Two satellites, three stations; satellite 0 sends blocks 70 and 71, satellite 1 block 80, and another program
    of satellite 0 a packet of its own.  Stations 0 and 2 track satellite 0, station 1 satellite 1; station 2 turns to satellite 1 at 30, before the first bit
    of block 71. *)
Definition face_net : downlink := mkDownlink LittleEndian (fun r u => 10) (fun _ => 1) (fun _ g s => 5 + Z.of_nat g) (fun _ p _ _ => p)
  (fun t u g s => true) (fun s => sat_make LittleEndian 0 0 (if (s =? 1)%nat then 1 else 0)) [0; 1; 2]%nat (fun _ => 1) (fun _ _ _ => true)
  (fun g => sat_make LittleEndian 0 0 (if (g =? 1)%nat then 1 else 0)).
Definition face_cs : list (fcall down_other) :=
  [FSend 10 0 70; FRaw 11 0 2048; FSend 12 0 71; FSend 13 1 80] ++ repeat (FDo DNext) 14 ++ [FDo (DTurn 30 2 (sat_make LittleEndian 0 0 1))] ++ repeat (FDo DNext) 8.
Example downlink_faces_case :
  match down_calls face_net 30000 face_cs with
  | Some (Ok (w, fns)) => l_queue (fw_net w) = [] /\ map (fun g => got_at g fns) [0; 1; 2]%nat = [[70; 71]; [80]; [70]] /\
      blocks_from 0 face_cs = [70; 71] /\ blocks_from 1 face_cs = [80] /\
      gots fns = [(25, 0%nat, 70); (27, 2%nat, 70); (29, 1%nat, 80); (45, 0%nat, 71)]
  | _ => False
  end.
Proof. vm_compute. repeat split. Qed.
