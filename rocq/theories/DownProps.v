(** Theorems about whole downlink networks: satellites, the channel to the ground, and ground stations. *)
From Coq Require Import ZArith List Lia Bool Arith Permutation Sorted.
From Verif Require Import Base SatAddrModel ConstellationModel DeviceModel DeviceSpec DeviceProofs ChannelModel
  LinkModel LinkSpec LinkProofs LinkDevices DownSpec DownProofs.
Import ListNotations.
Open Scope Z_scope.

(** * C66: the parts *)

Lemma dev_sends : forall ns i ops, obeyed ns = ordered ops -> s_sends (dev_ops i ns) = sends_to i ops.
Proof.
  intros ns i ops Ob.
  assert (A : s_sends (dev_ops i ns) = flat_map (fun o => match o with OrderSend _ j u p => if (j =? i)%nat then [(u, p)] else [] | _ => [] end) (obeyed ns)).
  { clear. induction ns as [|n ns IH]; [reflexivity|]. change (n :: ns) with ([n] ++ ns). unfold dev_ops, obeyed, s_sends in *.
    rewrite !flat_map_app, IH. f_equal. destruct n as [t j [t' u p|] ev| | | |]; try reflexivity; cbn; destruct (j =? i)%nat; reflexivity. }
  rewrite A, Ob. clear. induction ops as [|o ops IH]; [reflexivity|]. change (o :: ops) with ([o] ++ ops). unfold ordered, sends_to in *.
  rewrite !flat_map_app, IH. f_equal. destruct o; reflexivity.
Qed.

(** Whatever the network does, each satellite behaves as a satellite alone would (C40, C41), each station as a station
    alone would (C43, C44), at the same times; nothing is called but what was asked. *)
Theorem downlink_network_parts : forall d ops y ns, v_sane d -> v_run d ops = Some (Ok (y, ns)) ->
  obeyed ns = ordered ops /\ StronglySorted Z.le (map k_time ns) /\
  (forall i, s_run (s_step (v_fits d i) (v_tx d (v_rate d i))) s_init (dev_ops i ns) = Some (Ok (l_dev y i, dev_events i ns)) /\
     s_sends (dev_ops i ns) = sends_to i ops) /\
  (forall r, exists s, e_run (v_host d) (e_init (v_a0 d r)) (ear_ops d r ns) = Some s /\
     e_up s = ear_up d r ns /\ e_remote s = focus (v_a0 d r) r ns).
Proof.
  intros d ops y ns Sn R. pose proof (down_run_inv d Sn ops y ns R) as I. pose proof (down_obeys d Sn ops y ns R) as Ob.
  split; [exact Ob|]. split; [apply I|]. split.
  - intros i. split; [exact (li_dev _ _ _ _ _ _ _ I i)|]. apply dev_sends. exact Ob.
  - intros r. destruct (down_ears d Sn r ops y ns R) as [s [E1 E2 E3 E4 E5]]. exists s. split; [exact E1|]. split; [exact E5|].
    rewrite E3. apply (li_focus _ _ _ _ _ _ _ I).
Qed.
Print Assumptions downlink_network_parts.

(** * C66: nothing is lost, made up or doubled *)
Lemma tracked_wf : forall (d : downlink) r ops ns, v_sane d -> v_turns d ops -> obeyed ns = ordered ops ->
  forall n1 n2, ns = n1 ++ n2 -> wf_sat (v_host d) (focus (v_a0 d r) r n1).
Proof.
  intros d r ops ns Sn Wt Ob n1 n2 E.
  assert (T : forall t g a, In (KTurn t g a) n1 -> wf_sat (v_host d) a).
  { intros t g a H. apply (Wt t g). assert (Ho : In (OrderTurn t g a) (obeyed ns)).
    { subst ns. unfold obeyed. rewrite flat_map_app. apply in_or_app. left. apply in_flat_map. eexists. split; [exact H|]. left. reflexivity. }
    rewrite Ob in Ho. unfold ordered in Ho. apply in_flat_map in Ho. destruct Ho as (o & Ho & H'). destruct o; cbn in H'; try contradiction.
    - destruct H' as [H'|[]]. discriminate.
    - destruct H' as [H'|[]]. injection H' as -> -> ->. exact Ho. }
  clear - Sn T. pose proof (vs_a0 d Sn r) as W. revert W. generalize (v_a0 d r). induction n1 as [|n n1 IH]; intros a W; [exact W|].
  cbn [focus]. assert (T' : forall t g a, In (KTurn t g a) n1 -> wf_sat (v_host d) a) by (intros; eapply T; right; eauto). destruct n; auto.
  apply IH; [exact T'|]. destruct (_ =? _)%nat; [|exact W]. eapply T. left. reflexivity.
Qed.

(** Every transmission makes, for each station on the channel, a drop trace or a frame that arrives after the
    propagation delay.  A station goes on with a frame exactly if it tracks the sender when the first bit comes, and passes it
    up after the transmission time. *)
Theorem downlink_network_conserves : forall d ops y ns, v_sane d -> v_turns d ops -> v_run d ops = Some (Ok (y, ns)) ->
  Permutation (arrived ns ++ flying (l_queue y)) (flat_map (frames_of d) (sendings ns)) /\
  dropped ns = flat_map (drops_of d) (sendings ns) /\
  Permutation (passed ns ++ arriving (l_queue y)) (taken ns) /\
  (forall n1 t f ok n2, ns = n1 ++ KArrive t f ok :: n2 ->
     t = fl_arr f /\ (ok = true <-> v_addr d (fl_src f) = focus (v_a0 d (fl_to f)) (fl_to f) n1)) /\
  (forall t f, In (KUp t f) ns -> t = fl_arr f + fl_lasts f).
Proof.
  intros d ops y ns Sn Wt R. pose proof (down_run_inv d Sn ops y ns R) as I. pose proof (down_obeys d Sn ops y ns R) as Ob.
  split; [|split; [|split; [|split]]].
  - pose proof (li_fly _ _ _ _ _ _ _ I) as P. rewrite all_carried_frames in P. exact P.
  - pose proof (li_drop _ _ _ _ _ _ _ I) as P. rewrite all_missed_drops in P. exact P.
  - apply I.
  - intros n1 t f ok n2 E. destruct (li_heard _ _ _ _ _ _ _ I _ _ _ _ _ E) as [-> ->]. split; [reflexivity|].
    unfold down_hears. rewrite wf_neqb; [|apply Sn|eapply tracked_wf; eauto].
    destruct (sat_dec _ _); cbn; split; congruence.
  - apply I.
Qed.
Print Assumptions downlink_network_conserves.

(** ** Where it came from *)
Lemma accepts_tr : forall F i (ns : list (knote F)), accepts i ns = flat_map (fun e => match e with SAccept t u p => [(t, u, p)] | _ => [] end) (dev_events i ns).
Proof. reflexivity. Qed.

Lemma airing_accepted : forall dur (Dp : forall u, 0 <= dur u) d tr k a, d_inv dur d tr -> nth_error (airings tr) k = Some a ->
  exists t p, nth_error (flat_map (fun e => match e with SAccept t u p => [(t, u, p)] | _ => [] end) tr) k = Some (t, a_uid a, p) /\
    a_proto a = u16 p /\ t <= a_start a.
Proof.
  intros dur Dp d tr k a [Ti _ _ As] N. set (l := flat_map (fun e => match e with SAccept t u p => [(t, u, p)] | _ => [] end) tr).
  assert (Rq : requests tr = map (fun x => (fst (fst x), snd (fst x))) l).
  { unfold l, requests. clear. induction tr as [|[t u p|u|a] tr IH]; cbn; rewrite ?IH; reflexivity. }
  assert (Ak : asked tr = map (fun x => (snd (fst x), u16 (snd x))) l).
  { unfold l. clear. unfold asked. induction tr as [|[t u p|u|a] tr IH]; cbn; rewrite ?IH; reflexivity. }
  assert (T : exists rest, in_turn dur 0 (requests tr) = starts (airings tr) ++ rest).
  { destruct Ti as [_ [(_ & _ & _ & _ & E)|(c & m & _ & _ & _ & _ & E & _)] _ _ _]; [exists []; rewrite app_nil_r; congruence|eauto]. }
  destruct T as [rest T].
  assert (S : nth_error (in_turn dur 0 (requests tr)) k = Some (a_start a, a_uid a)).
  { rewrite T, nth_error_app1; [unfold starts; rewrite nth_error_map, N; reflexivity|]. unfold starts. rewrite map_length. apply nth_error_Some. congruence. }
  assert (W : forall r f k s u, nth_error (in_turn dur f r) k = Some (s, u) -> exists t, nth_error r k = Some (t, u) /\ t <= s).
  { clear. induction r as [|[t v] r IH]; intros f k s u H; [destruct k; discriminate|]. cbn [in_turn] in H. destruct k as [|k]; cbn in H.
    - injection H as <- <-. exists t. split; [reflexivity|lia].
    - apply IH in H. exact H. }
  apply W in S. destruct S as (t & S & Le). rewrite Rq, nth_error_map in S.
  destruct (nth_error l k) as [[[t' u'] p']|] eqn:L; [|discriminate]. cbn in S. injection S as -> ->.
  exists t, p'. split; [reflexivity|]. split; [|exact Le].
  assert (Q : nth_error (map (fun e : Z * Z => (fst e, Some (snd e))) (asked tr)) k = Some (a_uid a, Some (a_proto a))).
  { rewrite As, nth_error_app1.
    - rewrite nth_error_map. unfold frames. rewrite nth_error_map, N. reflexivity.
    - rewrite map_length. unfold frames. rewrite map_length. apply nth_error_Some. congruence. }
  rewrite nth_error_map, Ak, nth_error_map, L in Q. cbn in Q. injection Q as Q. congruence.
Qed.

Lemma accept_sent : forall dur (Dp : forall u, 0 <= dur u) fits ops d tr d' ev, d_inv dur d tr ->
  s_run (s_step fits dur) d ops = Some (Ok (d', ev)) ->
  forall t u p, In (SAccept t u p) ev -> In (SSend t u p) ops.
Proof.
  intros dur Dp fits. induction ops as [|o ops IH]; intros d tr d' ev I R t u p H; cbn [s_run] in R.
  - injection R as <- <-. destruct H.
  - destruct (s_step fits dur d o) as [[[d1 e1]| | |]|] eqn:S; try discriminate.
    destruct (s_run (s_step fits dur) d1 ops) as [[[d2 e2]| | |]|] eqn:R2; try discriminate. injection R as <- <-.
    destruct (s_moves dur Dp fits _ _ _ _ _ I S) as [I1 M]. apply in_app_or in H. destruct H as [H|H].
    + left. inversion M; subst; cbn in H; intuition; congruence.
    + right. eapply IH; eauto.
Qed.

Lemma sending_airing : forall d (Sn : v_sane d) ops y ns s, v_run d ops = Some (Ok (y, ns)) -> In s (sendings ns) ->
  exists a, In a (airings (dev_events (sd_from s) ns)) /\ s = mkSending (a_start a) (sd_from s) (a_uid a) (a_proto a).
Proof.
  intros d Sn ops y ns s R Hs. pose proof (down_run_inv d Sn ops y ns R) as I.
  pose proof (device_sendings _ _ _ _ _ _ y (sd_from s) I) as E.
  assert (H : In s (filter (from (sd_from s)) (sendings ns))) by (apply filter_In; split; [exact Hs|unfold from; apply Nat.eqb_refl]).
  rewrite E in H. apply in_map_iff in H. destruct H as (a & <- & Ha). cbn [sd_from]. eauto.
Qed.

Lemma sending_accepted : forall d (Sn : v_sane d) ops y ns s, v_run d ops = Some (Ok (y, ns)) -> In s (sendings ns) ->
  exists t p, In (t, sd_uid s, p) (accepts (sd_from s) ns) /\ sd_proto s = u16 p /\ t <= sd_time s /\ In (LSend t (sd_from s) (sd_uid s) p) ops.
Proof.
  intros d Sn ops y ns s R Hs. pose proof (down_run_inv d Sn ops y ns R) as I.
  destruct (sending_airing d Sn ops y ns s R Hs) as (a & Ha & Es). set (i := sd_from s) in *.
  apply In_nth_error in Ha. destruct Ha as [k Ha]. pose proof (dur_pos d Sn i) as Dp.
  destruct (airing_accepted _ Dp _ _ k a (li_inv _ _ _ _ _ _ _ I i) Ha) as (t & p & N & Pr & Le).
  rewrite Es. cbn [sd_uid sd_proto sd_time]. exists t, p. apply nth_error_In in N. split; [exact N|]. split; [exact Pr|]. split; [exact Le|].
  assert (Hs' : In (SSend t (a_uid a) p) (dev_ops i ns)).
  { eapply (accept_sent _ Dp); [apply d_init|exact (li_dev _ _ _ _ _ _ _ I i)|]. apply in_flat_map in N. destruct N as (e & He & N).
    destruct e; cbn in N; try contradiction. destruct N as [[= -> -> ->]|[]]. exact He. }
  unfold dev_ops in Hs'. apply in_flat_map in Hs'. destruct Hs' as (n & Hn & Hs'). destruct n as [t' j o ev| | | |]; cbn in Hs'; try contradiction.
  destruct (Nat.eqb_spec j i) as [->|]; [|contradiction]. destruct Hs' as [->|[]].
  destruct (li_air _ _ _ _ _ _ _ I _ _ _ _ Hn) as [E _]. specialize (E _ _ _ eq_refl). subst t'.
  assert (Ho : In (OrderSend t i (a_uid a) p) (obeyed ns)).
  { unfold obeyed. apply in_flat_map. eexists. split; [exact Hn|]. left. reflexivity. }
  rewrite (down_obeys d Sn ops y ns R) in Ho. unfold ordered in Ho. apply in_flat_map in Ho. destruct Ho as (o & Ho & H').
  destruct o; cbn in H'; try contradiction; destruct H' as [H'|[]]; [|discriminate]. injection H' as -> -> -> ->. exact Ho.
Qed.

(** What a station passes up was sent to a satellite on the way down, with its protocol number, reached a station of the channel, and came from the satellite that was
    tracked when its first bit came; and it comes exactly when it should. *)
Theorem downlink_provenance : forall d ops y ns t f, v_sane d -> v_turns d ops -> v_run d ops = Some (Ok (y, ns)) -> In (KUp t f) ns ->
  exists t0 p tt, In (LSend t0 (fl_src f) (fl_uid f) p) ops /\ fl_proto f = u16 p /\ t0 <= tt /\
    In (fl_to f) (v_ground d) /\ v_success d tt (fl_uid f) (fl_to f) (fl_src f) = true /\
    fl_arr f = tt + v_delay d tt (fl_to f) (fl_src f) /\ t = fl_arr f + v_tx d (v_rate d (fl_src f)) (fl_uid f) /\
    exists n1 n2, ns = n1 ++ KArrive (fl_arr f) f true :: n2 /\ focus (v_a0 d (fl_to f)) (fl_to f) n1 = v_addr d (fl_src f).
Proof.
  intros d ops y ns t f Sn Wt R Hu. destruct (downlink_network_conserves d ops y ns Sn Wt R) as (Fl & _ & Ar & He & Up).
  assert (Ht : In f (taken ns)).
  { apply (Permutation_in _ Ar). apply in_or_app. left. unfold passed. apply in_flat_map. eexists. split; [exact Hu|]. left. reflexivity. }
  unfold taken in Ht. apply in_flat_map in Ht. destruct Ht as (n & Hn & Ht). destruct n as [| |t1 f1 [|]| |]; cbn in Ht; try contradiction.
  destruct Ht as [->|[]]. destruct (in_split _ _ Hn) as (n1 & n2 & En). destruct (He _ _ _ _ _ En) as [-> Hf].
  assert (Hc : In f (flat_map (frames_of d) (sendings ns))).
  { apply (Permutation_in _ Fl). apply in_or_app. left. unfold arrived. apply in_flat_map. eexists. split; [exact Hn|]. left. reflexivity. }
  apply in_flat_map in Hc. destruct Hc as (s & Hs & Hc). unfold frames_of in Hc. apply in_map_iff in Hc. destruct Hc as (g & Ef & Hg).
  apply filter_In in Hg. destruct Hg as [Hg Hr]. destruct (sending_accepted d Sn ops y ns s R Hs) as (t0 & p & _ & Pr & Le & Ho).
  exists t0, p, (sd_time s). rewrite (Up _ _ Hu). rewrite <- Ef in *. cbn [frame_at fl_src fl_to fl_uid fl_proto fl_arr fl_lasts] in *.
  repeat split; try assumption. exists n1, n2. split; [exact En|]. symmetry. apply Hf. reflexivity.
Qed.
Print Assumptions downlink_provenance.

(** * C66: nothing fails, the network comes to rest *)
Theorem downlink_network_safe : forall d ops r, v_sane d -> NoDup (given ops) -> v_run d ops = Some r -> exists x, r = Ok x.
Proof.
  intros d ops r Sn N R.
  eapply (l_safe (down_step (v_tx d) (v_rate d) (v_fits d)) (fun i => v_tx d (v_rate d i)) _ _ (v_a0 d) (fun i => d_inv (v_tx d (v_rate d i))))
    with (known := fun i e u => find_tag u (s_tags e) <> None); [| | | | | | | | | | |exact N|exact R].
  - apply (dur_pos d Sn).
  - apply (hop_pos d Sn).
  - intros. apply d_init.
  - intros i e tr [T _ _ _]. exact T.
  - intros i e tr o e' ev I S. apply (s_moves _ (dur_pos d Sn i) (v_fits d i)); assumption.
  - intros t i u p. eexists. apply spread_eq.
  - intros i e t u p H. apply s_some_send. exact H.
  - intros i e c H. eapply s_some_done. exact H.
  - intros i u H. apply H. reflexivity.
  - intros i e o e' ev u S H. eapply s_tagged; eauto.
  - intros i e tr o r' I S H. eapply (s_safe _ (dur_pos d Sn i)); eauto. intros t u p E. destruct (find_tag u (s_tags e)) eqn:F; [|reflexivity].
    exfalso. eapply H; [exact E|congruence].
Qed.
Print Assumptions downlink_network_safe.

(** Letting the simulator go on ends with nothing left to do. *)
Theorem downlink_network_rests : forall d ops y ns, v_sane d -> v_run d ops = Some (Ok (y, ns)) ->
  exists k y' ns', v_run d (ops ++ repeat LNext k) = Some (Ok (y', ns')) /\ l_queue y' = [].
Proof.
  intros d ops y ns Sn R.
  eapply (l_settles (down_step (v_tx d) (v_rate d) (v_fits d)) (fun i => v_tx d (v_rate d i)) _ _ (v_a0 d) (fun i => d_inv (v_tx d (v_rate d i))))
    with (known := fun i e u => find_tag u (s_tags e) <> None); [| | | | | | | | | | |exact R].
  - apply (dur_pos d Sn).
  - apply (hop_pos d Sn).
  - intros. apply d_init.
  - intros i e tr [T _ _ _]. exact T.
  - intros i e tr o e' ev I S. apply (s_moves _ (dur_pos d Sn i) (v_fits d i)); assumption.
  - intros t i u p. eexists. apply spread_eq.
  - intros i e t u p H. apply s_some_send. exact H.
  - intros i e c H. eapply s_some_done. exact H.
  - intros i u H. apply H. reflexivity.
  - intros i e o e' ev u S H. eapply s_tagged; eauto.
  - intros i e tr o r' I S H. eapply (s_safe _ (dur_pos d Sn i)); eauto. intros t u p E. destruct (find_tag u (s_tags e)) eqn:F; [|reflexivity].
    exfalso. eapply H; [exact E|congruence].
Qed.
Print Assumptions downlink_network_rests.

(** * C66: at rest, every accepted packet has had exactly one outcome at every station *)
Definition about (u : Z) (g : nat) (f : flight) : bool := (fl_uid f =? u) && (fl_to f =? g)%nat.

Lemma filter_perm : forall A (f : A -> bool) l l', Permutation l l' -> Permutation (filter f l) (filter f l').
Proof.
  intros A f l l' P. induction P as [|x l l' P IH|x y l|l l' l'' P1 IH1 P2 IH2]; cbn [filter].
  - constructor.
  - destruct (f x); [constructor|]; exact IH.
  - destruct (f x), (f y); first [apply perm_swap|reflexivity].
  - etransitivity; eassumption.
Qed.
Lemma filter_none : forall A (f : A -> bool) l, (forall x, In x l -> f x = false) -> filter f l = [].
Proof. induction l as [|x l IH]; intros H; [reflexivity|]. cbn. rewrite (H x (or_introl eq_refl)). apply IH. intros; apply H; right; assumption. Qed.
Lemma filter_only : forall (f : nat -> bool) g l, NoDup l -> In g l -> filter (fun x => f x && (x =? g)%nat) l = if f g then [g] else [].
Proof.
  intros f g. induction l as [|x l IH]; intros N Hg; [destruct Hg|]. inversion N as [|? ? N1 N2]; subst. cbn [filter].
  destruct Hg as [->|Hg].
  - rewrite Nat.eqb_refl, andb_true_r. rewrite (filter_none _ _ l).
    + reflexivity.
    + intros z Hz. destruct (Nat.eqb_spec z g) as [->|]; [contradiction|apply andb_false_r].
  - destruct (Nat.eqb_spec x g) as [->|]; [contradiction|]. rewrite andb_false_r. auto.
Qed.
Lemma filter_filter : forall A (f g : A -> bool) l, filter f (filter g l) = filter (fun x => g x && f x) l.
Proof. induction l as [|x l IH]; [reflexivity|]. cbn [filter]. destruct (g x); cbn [filter andb]; rewrite IH; reflexivity. Qed.
Lemma nodup_filter_one : forall A (key : A -> Z) l x, NoDup (map key l) -> In x l -> filter (fun y => key y =? key x) l = [x].
Proof.
  intros A key. induction l as [|z l IH]; intros x N Hx; [destruct Hx|]. cbn [map] in N. inversion N as [|? ? N1 N2]; subst. cbn [filter].
  destruct Hx as [->|Hx].
  - rewrite Z.eqb_refl, filter_none; [reflexivity|]. intros y Hy. apply Z.eqb_neq. intros E. apply N1. rewrite <- E. apply in_map. exact Hy.
  - destruct (Z.eqb_spec (key z) (key x)) as [E|]; [|auto]. exfalso. apply N1. rewrite E. apply in_map. exact Hx.
Qed.

(** Packets given once are accepted at most once. *)
Lemma accepted_once : forall dur (Dp : forall u, 0 <= dur u) fits ops d tr d' ev u, d_inv dur d tr ->
  s_run (s_step fits dur) d ops = Some (Ok (d', ev)) ->
  (count_occ Z.eq_dec (map snd (requests ev)) u <= count_occ Z.eq_dec (map fst (s_sends ops)) u)%nat.
Proof.
  intros dur Dp fits. induction ops as [|o ops IH]; intros d tr d' ev u I R; cbn [s_run] in R.
  - injection R as <- <-. cbn. lia.
  - destruct (s_step fits dur d o) as [[[d1 e1]| | |]|] eqn:S; try discriminate.
    destruct (s_run (s_step fits dur) d1 ops) as [[[d2 e2]| | |]|] eqn:R2; try discriminate. injection R as <- <-.
    destruct (s_moves dur Dp fits _ _ _ _ _ I S) as [I1 M]. specialize (IH _ _ _ _ u I1 R2).
    rewrite requests_app, map_app, count_occ_app. change (o :: ops) with ([o] ++ ops). unfold s_sends. rewrite flat_map_app, map_app, count_occ_app.
    fold (s_sends ops) (s_sends [o]). assert ((count_occ Z.eq_dec (map snd (requests e1)) u <= count_occ Z.eq_dec (map fst (s_sends [o])) u)%nat); [|lia].
    inversion M; subst; cbn; lia.
Qed.

Lemma given_once : forall (ops : list (lop (F := sat_address))) i, NoDup (given ops) -> NoDup (map fst (sends_to i ops)).
Proof.
  intros ops i. induction ops as [|o ops IH]; intros N; [constructor|]. change (o :: ops) with ([o] ++ ops) in *. unfold given in N. unfold sends_to.
  rewrite flat_map_app in *. rewrite map_app. fold (given ops) (given [o]) in N. fold (sends_to i ops) (sends_to i [o]).
  assert (Sub : forall u, In u (map fst (sends_to i ops)) -> In u (given ops)).
  { clear. intros u H. apply in_map_iff in H. destruct H as ([v p] & <- & H). unfold sends_to in H. apply in_flat_map in H. destruct H as (o & Ho & H).
    apply in_flat_map. exists o. split; [exact Ho|]. destruct o as [t j w p'| |]; cbn in *; try contradiction. destruct (j =? i)%nat; [|contradiction].
    destruct H as [[= -> ->]|[]]. left. reflexivity. }
  destruct o as [t j u p| |]; cbn in N |- *; auto. inversion N as [|? ? N1 N2]; subst. destruct (j =? i)%nat; cbn; auto. constructor; auto.
Qed.

Lemma given_from_one : forall (ops : list (lop (F := sat_address))) t i u p t' i' p', NoDup (given ops) ->
  In (LSend t i u p) ops -> In (LSend t' i' u p') ops -> i = i'.
Proof.
  assert (G : forall (ops : list (lop (F := sat_address))) t i u p, In (LSend t i u p) ops -> In u (given ops)).
  { intros ops t i u p H. apply in_flat_map. eexists. split; [exact H|]. left. reflexivity. }
  induction ops as [|o ops IH]; intros t i u p t' i' p' N H H'; [destruct H|]. change (o :: ops) with ([o] ++ ops) in N. unfold given in N. rewrite flat_map_app in N.
  fold (given ops) (given [o]) in N. destruct H as [->|H], H' as [H'|H'].
  - congruence.
  - cbn in N. inversion N. exfalso. apply G in H'. contradiction.
  - subst o. cbn in N. inversion N. exfalso. apply G in H. contradiction.
  - eapply IH; [|exact H|exact H']. destruct o; cbn in N; auto. inversion N. assumption.
Qed.

Lemma aired_once : forall d (Sn : v_sane d) ops y ns s, v_run d ops = Some (Ok (y, ns)) -> NoDup (given ops) -> In s (sendings ns) ->
  filter (fun s' => sd_uid s' =? sd_uid s) (sendings ns) = [s].
Proof.
  intros d Sn ops y ns s R N Hs. pose proof (down_run_inv d Sn ops y ns R) as I. pose proof (down_obeys d Sn ops y ns R) as Ob.
  set (i := sd_from s). pose proof (dur_pos d Sn i) as Dp.
  assert (E : filter (fun s' => sd_uid s' =? sd_uid s) (sendings ns) = filter (fun s' => sd_uid s' =? sd_uid s) (filter (from i) (sendings ns))).
  { rewrite filter_filter. apply filter_ext_in. intros s' Hs'. unfold from. destruct (Nat.eqb_spec (sd_from s') i) as [|Ne]; [reflexivity|]. cbn [andb].
    apply Z.eqb_neq. intros E. destruct (sending_accepted d Sn ops y ns s R Hs) as (t1 & p1 & _ & _ & _ & H1).
    destruct (sending_accepted d Sn ops y ns s' R Hs') as (t2 & p2 & _ & _ & _ & H2). apply Ne. rewrite E in H2.
    exact (given_from_one _ _ _ _ _ _ _ _ N H2 H1). }
  rewrite E. apply nodup_filter_one; [|apply filter_In; split; [exact Hs|apply Nat.eqb_refl]].
  rewrite (device_sendings _ _ _ _ _ _ y i I), map_map. cbn [sd_uid].
  pose proof (li_dev _ _ _ _ _ _ _ I i) as D.
  assert (Nr : NoDup (map snd (requests (dev_events i ns)))).
  { apply (NoDup_count_occ Z.eq_dec). intros u. etransitivity; [eapply (accepted_once _ Dp); [apply d_init|exact D]|].
    rewrite (dev_sends _ _ _ Ob). apply (NoDup_count_occ Z.eq_dec). apply given_once. exact N. }
  pose proof (li_inv _ _ _ _ _ _ _ I i) as [Ti _ _ _].
  assert (T : exists rest, in_turn (v_tx d (v_rate d i)) 0 (requests (dev_events i ns)) = starts (airings (dev_events i ns)) ++ rest).
  { destruct Ti as [_ [(_ & _ & _ & _ & T)|(c & m & _ & _ & _ & _ & T & _)] _ _ _]; [exists []; rewrite app_nil_r; congruence|eauto]. }
  destruct T as [rest T]. assert (M : map snd (requests (dev_events i ns)) = map a_uid (airings (dev_events i ns)) ++ map snd rest).
  { rewrite <- (in_turn_uids (v_tx d (v_rate d i)) (requests (dev_events i ns)) 0), T, map_app. f_equal. unfold starts. rewrite map_map. reflexivity. }
  rewrite M in Nr. clear - Nr. induction (map a_uid (airings (dev_events i ns))) as [|x l IH]; [constructor|]. cbn in Nr. inversion Nr as [|? ? A B]; subst.
  constructor; [|auto]. intros H. apply A. apply in_or_app. left. exact H.
Qed.

(** The transmission exists and happens once; what it does at a station is decided when it starts and when its first bit comes. *)
Theorem downlink_outcomes : forall d ops y ns, v_sane d -> v_turns d ops -> v_run d ops = Some (Ok (y, ns)) ->
  NoDup (given ops) -> NoDup (v_ground d) -> l_queue y = [] ->
  forall i t u p, In (t, u, p) (accepts i ns) ->
  exists s, filter (fun s => sd_uid s =? u) (sendings ns) = [s] /\ sd_from s = i /\ sd_uid s = u /\ sd_proto s = u16 p /\ t <= sd_time s /\
    forall g, In g (v_ground d) ->
      if v_success d (sd_time s) u g i then
        filter (about u g) (arrived ns) = [frame_at d s g] /\
        exists n1 ok n2, ns = n1 ++ KArrive (sd_time s + v_delay d (sd_time s) g i) (frame_at d s g) ok :: n2 /\
          filter (about u g) (passed ns) = (if sat_dec (v_addr d i) (focus (v_a0 d g) g n1) then [frame_at d s g] else [])
      else filter (about u g) (arrived ns) = [] /\ filter (about u g) (passed ns) = [].
Proof.
  intros d ops y ns Sn Wt R N Ng Q i t u p Hin. pose proof (down_run_inv d Sn ops y ns R) as I.
  destruct (downlink_network_conserves d ops y ns Sn Wt R) as (Fl & _ & Ar & He & _). rewrite Q in Fl, Ar. cbn in Fl, Ar. rewrite app_nil_r in Fl, Ar.
  pose proof (dur_pos d Sn i) as Dp.
  (* the transmission *)
  assert (S : exists s, In s (sendings ns) /\ sd_from s = i /\ sd_uid s = u /\ sd_proto s = u16 p /\ t <= sd_time s).
  { eapply (at_rest _ (fun i => v_tx d (v_rate d i))) in I as Rest; [| |exact Q].
    2:{ intros j e tr [T _ _ _]. exact T. }
    destruct Rest as [St _]. apply In_nth_error in Hin. destruct Hin as [k Hk].
    assert (Lr : nth_error (requests (dev_events i ns)) k = Some (t, u)).
    { assert (E : requests (dev_events i ns) = map (fun x => (fst (fst x), snd (fst x))) (accepts i ns)).
      { unfold accepts, requests. clear. induction (dev_events i ns) as [|[a b c|b|a] tr IH]; cbn; rewrite ?IH; reflexivity. }
      rewrite E, nth_error_map, Hk. reflexivity. }
    assert (Lk : (k < length (airings (dev_events i ns)))%nat).
    { rewrite <- (map_length (fun a => (a_start a, a_uid a))). fold (starts (airings (dev_events i ns))). rewrite St.
      rewrite <- (map_length snd), in_turn_uids, map_length. apply nth_error_Some. congruence. }
    apply nth_error_Some in Lk. destruct (nth_error (airings (dev_events i ns)) k) as [a|] eqn:Ha; [|congruence]. clear Lk.
    destruct (airing_accepted _ Dp _ _ k a (li_inv _ _ _ _ _ _ _ I i) Ha) as (t' & p' & Hk' & Pr & Le).
    unfold accepts in Hk. rewrite Hk in Hk'. injection Hk' as <- Eu <-. subst u.
    exists (mkSending (a_start a) i (a_uid a) (a_proto a)). cbn [sd_from sd_uid sd_proto sd_time]. repeat split; auto.
    assert (H : In (mkSending (a_start a) i (a_uid a) (a_proto a)) (filter (from i) (sendings ns))).
    { rewrite (device_sendings _ _ _ _ _ _ y i I). apply in_map_iff. exists a. split; [reflexivity|]. eapply nth_error_In; eauto. }
    apply filter_In in H. tauto. }
  destruct S as (s & Hs & Ei & Eu & Ep & Le). exists s. pose proof (aired_once d Sn ops y ns s R N Hs) as One. rewrite Eu in One.
  repeat (split; [assumption|]). intros g Hg.
  (* its frames *)
  assert (Fr : filter (about u g) (flat_map (frames_of d) (sendings ns)) = if v_success d (sd_time s) u g i then [frame_at d s g] else []).
  { assert (E : filter (about u g) (flat_map (frames_of d) (sendings ns)) =
        filter (about u g) (flat_map (frames_of d) (filter (fun s => sd_uid s =? u) (sendings ns)))).
    { clear. induction (sendings ns) as [|x l IH]; [reflexivity|]. cbn [flat_map filter]. rewrite filter_app, IH.
      destruct (sd_uid x =? u) eqn:E; [cbn [flat_map]; rewrite filter_app; reflexivity|]. rewrite (filter_none _ _ (frames_of d x)); [reflexivity|].
      intros f Hf. unfold frames_of in Hf. apply in_map_iff in Hf. destruct Hf as (g' & <- & _). unfold about. cbn [frame_at fl_uid]. rewrite E. reflexivity. }
    rewrite E, One. cbn [flat_map]. rewrite app_nil_r. unfold frames_of.
    assert (E2 : forall l, filter (about u g) (map (frame_at d s) l) = map (frame_at d s) (filter (fun x => (x =? g)%nat) l)).
    { induction l as [|x l IH]; [reflexivity|]. cbn [map filter]. rewrite IH. unfold about at 1. cbn [frame_at fl_uid fl_to]. rewrite Eu, Z.eqb_refl. cbn [andb].
      destruct (x =? g)%nat; reflexivity. }
    rewrite E2, filter_filter. rewrite (filter_only (reaches d s) g _ Ng Hg). unfold reaches. rewrite Ei, Eu.
    destruct (v_success d (sd_time s) u g i); reflexivity. }
  apply (filter_perm _ (about u g)) in Fl. rewrite Fr in Fl. apply (filter_perm _ (about u g)) in Ar.
  assert (Tk : forall n : list (knote sat_address), filter (about u g) (arrived n) = [] -> filter (about u g) (taken n) = []).
  { clear. induction n as [|x n IH]; [auto|]. intros H. change (x :: n) with ([x] ++ n) in *. unfold arrived, taken in *. rewrite flat_map_app, filter_app in *.
    apply app_eq_nil in H. destruct H as [H1 H2]. rewrite (IH H2). destruct x as [| |t f [|]| |]; try reflexivity. cbn in *. rewrite H1. reflexivity. }
  destruct (v_success d (sd_time s) u g i).
  - apply Permutation_sym, Permutation_length_1_inv in Fl. split; [exact Fl|].
    assert (Ha : In (frame_at d s g) (arrived ns)) by (assert (H : In (frame_at d s g) (filter (about u g) (arrived ns))) by (rewrite Fl; left; reflexivity); apply filter_In in H; tauto).
    unfold arrived in Ha. apply in_flat_map in Ha. destruct Ha as (n & Hn & Ha). destruct n as [| |t1 f1 ok| |]; cbn in Ha; try contradiction.
    destruct Ha as [->|[]]. destruct (in_split _ _ Hn) as (n1 & n2 & En). destruct (He _ _ _ _ _ En) as [Et Ok]. cbn [frame_at fl_arr fl_src fl_to] in Et, Ok. rewrite Ei in Et, Ok.
    exists n1, ok, n2. split; [rewrite En, Et; reflexivity|].
    assert (Ab : about u g (frame_at d s g) = true) by (unfold about; cbn [frame_at fl_uid fl_to]; rewrite Eu, Z.eqb_refl, Nat.eqb_refl; reflexivity).
    rewrite En in Fl. unfold arrived in Fl. rewrite flat_map_app, filter_app in Fl. cbn [flat_map app filter] in Fl. rewrite Ab in Fl.
    fold (arrived n1) (arrived n2) in Fl.
    assert (Nil : filter (about u g) (arrived n1) = [] /\ filter (about u g) (arrived n2) = []).
    { destruct (filter (about u g) (arrived n1)) as [|x l]; cbn in Fl; [injection Fl as Fl; auto|]. injection Fl as _ Fl. destruct l; discriminate. }
    destruct Nil as [Nil1 Nil2].
    assert (Tn : filter (about u g) (taken ns) = if ok then [frame_at d s g] else []).
    { rewrite En. unfold taken. rewrite flat_map_app, filter_app. cbn [flat_map]. rewrite filter_app. fold (taken n1) (taken n2). rewrite (Tk _ Nil1), (Tk _ Nil2), app_nil_r.
      cbn [app]. destruct ok; [cbn [filter]; rewrite Ab|]; reflexivity. }
    rewrite Tn in Ar. destruct (sat_dec (v_addr d i) (focus (v_a0 d g) g n1)) as [Y|Y].
    + apply Ok in Y. subst ok. apply Permutation_sym, Permutation_length_1_inv in Ar. exact Ar.
    + destruct ok; [exfalso; apply Y; apply Ok; reflexivity|]. apply Permutation_sym, Permutation_nil in Ar. exact Ar.
  - apply Permutation_sym, Permutation_nil in Fl. split; [exact Fl|]. rewrite (Tk _ Fl) in Ar. apply Permutation_sym, Permutation_nil in Ar. exact Ar.
Qed.
Print Assumptions downlink_outcomes.

(** Two satellites, three stations.  Packet 1 of satellite 0 reaches stations 0 and 1 and is lost towards 2; station 1 tracks
    satellite 1, so only station 0 hears it.  Packet 2 waits for packet 1.  Station 1 turns to satellite 0 between the first bit of
    packet 1 and that of packet 2. *)
Definition net : downlink := mkDownlink LittleEndian (fun r u => 10) (fun _ => 1) (fun _ g s => 5 + Z.of_nat g) (fun _ p _ _ => p)
  (fun t u g s => negb ((g =? 2)%nat && (u =? 1))) (fun s => sat_make LittleEndian 0 0 (if (s =? 1)%nat then 1 else 0)) [0; 1; 2]%nat (fun _ => 1) (fun _ _ _ => true)
  (fun g => sat_make LittleEndian 0 0 (if (g =? 1)%nat then 1 else 0)).
Lemma net_sane : v_sane net.
Proof.
  constructor; cbn [net v_tx v_delay v_addr v_a0 v_host]; try (intros; lia).
  - intros s. exists 0, 0, (if (s =? 1)%nat then 1 else 0). repeat split; try lia; destruct (s =? 1)%nat; lia.
  - intros g. exists 0, 0, (if (g =? 1)%nat then 1 else 0). repeat split; try lia; destruct (g =? 1)%nat; lia.
Qed.
Definition net_ops : list (lop (F := sat_address)) :=
  [LSend 10 0 1 7; LSend 12 0 2 8; LSend 13 1 3 9; LNext; LNext; LTurn 17 1 (sat_make LittleEndian 0 0 0)] ++ repeat LNext 13.
Example downlink_network_case :
  match v_run net net_ops with
  | Some (Ok (y, ns)) =>
      l_queue y = [] /\
      sendings ns = [mkSending 10 0 1 7; mkSending 13 1 3 9; mkSending 20 0 2 8] /\
      dropped ns = [(10, 0%nat, 1)] /\
      map (fun f => (fl_uid f, fl_to f, fl_arr f)) (arrived ns) = [(1, 0%nat, 15); (1, 1%nat, 16); (3, 0%nat, 18); (3, 1%nat, 19); (3, 2%nat, 20); (2, 0%nat, 25); (2, 1%nat, 26); (2, 2%nat, 27)] /\
      map (fun f => (fl_uid f, fl_to f, fl_end f, fl_proto f)) (passed ns) = [(1, 0%nat, 25, 7); (2, 0%nat, 35, 8); (2, 1%nat, 36, 8); (2, 2%nat, 37, 8)]
  | _ => False
  end.
Proof. vm_compute. repeat split. Qed.
