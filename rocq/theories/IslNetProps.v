(** Theorems about linked satellites. *)
From Coq Require Import ZArith List Lia Bool Arith Permutation Sorted.
From Verif Require Import Base SatAddrModel ConstellationModel DeviceModel DeviceSpec DeviceProofs ChannelModel
  LinkModel LinkSpec LinkProofs LinkDevices IslNetSpec.
Import ListNotations.
Open Scope Z_scope.

Section Isl.
Variable w : islnet.
Hypothesis Ln : w_linked w.

Let step := isl_step (w_tx w) (w_rate w) (w_fits w).
Let dur := fun i => w_tx w (w_rate w i).
Let spread := isl_spread (w_tx w) (w_rate w) (w_delay w) (w_success w) (w_channel w).
Let x0 := fun _ : nat => tt.
Let inv := fun i => t_inv (dur i).

Lemma isl_dur_pos : forall i u, 0 <= dur i u.
Proof. intros. apply (ws_tx w Ln). Qed.

Lemma isl_spread_eq : forall t i u p, spread t i u p =
  Ok [if w_success w t u i (w_peer w i) then Reach (w_delay w t i (w_peer w i)) (w_peer w i) (w_tx w (w_rate w i) u) else Lost].
Proof.
  intros t i u p. unfold spread, isl_spread, ss_transmit.
  assert (D : exists a b, w_channel w i = mkSS [a; b] true /\ (if (i =? a)%nat then b else a) = w_peer w i).
  { destruct (ws_channel w Ln i) as [->| ->]; eexists; eexists; (split; [reflexivity|]).
    - rewrite Nat.eqb_refl. reflexivity.
    - destruct (Nat.eqb_spec i (w_peer w i)); congruence. }
  destruct D as (a & b & -> & D). cbn [ss_linked ss_src assert_ rbind]. rewrite D.
  destruct (w_success w t u i (w_peer w i)); reflexivity.
Qed.

Lemma isl_hop_pos : forall t i u p hops after r lasts, spread t i u p = Ok hops -> In (Reach after r lasts) hops -> 0 <= after /\ 0 <= lasts.
Proof.
  intros t i u p hops after r lasts E Hin. rewrite isl_spread_eq in E. injection E as <-. destruct Hin as [H|[]].
  destruct (w_success w t u i (w_peer w i)); [|discriminate]. injection H as <- <- <-. split; [apply (ws_delay w Ln)|apply (ws_tx w Ln)].
Qed.

Lemma isl_inv_init : forall i, inv i s_init [].
Proof. intros. apply t_inv_init. Qed.
Lemma isl_inv_step : forall i e tr o e' ev, inv i e tr -> step i e o = Some (Ok (e', ev)) -> inv i e' (tr ++ ev) /\ moves (dur i) e o ev e'.
Proof. intros i e tr o e' ev I S. apply (i_moves _ (isl_dur_pos i) (w_fits w i)); assumption. Qed.

Lemma isl_run_inv : forall ops y ns, w_run w ops = Some (Ok (y, ns)) -> l_inv step spread isl_hears x0 inv ns y.
Proof.
  intros ops y ns R. eapply (l_run_inv step dur spread isl_hears x0 inv); [apply isl_dur_pos|apply isl_hop_pos|apply isl_inv_init| |apply isl_inv_step|exact R].
  intros i e tr T. exact T.
Qed.
Lemma isl_obeys : forall ops y ns, w_run w ops = Some (Ok (y, ns)) -> obeyed ns = ordered ops.
Proof.
  intros ops y ns R. eapply (run_obeys step dur spread isl_hears x0 inv); [apply isl_dur_pos|apply isl_hop_pos|apply isl_inv_init| |apply isl_inv_step|exact R].
  intros i e tr T. exact T.
Qed.

Lemma isl_carried : forall l, all_carried spread l = map (w_frame w) (filter (w_reaches w) l).
Proof.
  induction l as [|s l IH]; [reflexivity|]. unfold all_carried in *. cbn [flat_map filter]. rewrite IH. unfold fates, hops_of. rewrite isl_spread_eq.
  unfold w_reaches. destruct (w_success _ _ _ _ _); reflexivity.
Qed.
Lemma isl_missed : forall l, all_missed spread l = map (fun s => (sd_time s, sd_from s, sd_uid s)) (filter (fun s => negb (w_reaches w s)) l).
Proof.
  induction l as [|s l IH]; [reflexivity|]. unfold all_missed in *. cbn [flat_map filter]. rewrite IH. unfold fates, hops_of. rewrite isl_spread_eq.
  unfold w_reaches. destruct (w_success _ _ _ _ _); reflexivity.
Qed.
Lemma isl_all_heard : forall ns y, l_inv step spread isl_hears x0 inv ns y -> taken ns = arrived ns.
Proof.
  intros ns y I. assert (A : forall t f ok, In (KArrive t f ok) ns -> ok = true).
  { intros t f ok H. apply in_split in H. destruct H as (n1 & n2 & E). destruct (li_heard _ _ _ _ _ _ _ I _ _ _ _ _ E) as [_ ->]. reflexivity. }
  clear I. induction ns as [|n ns IH]; [reflexivity|]. change (n :: ns) with ([n] ++ ns). unfold taken, arrived in *. rewrite !flat_map_app, IH by (intros; eapply A; right; eauto).
  f_equal. destruct n as [| |t f ok| |]; try reflexivity. rewrite (A t f ok (or_introl eq_refl)). reflexivity.
Qed.
End Isl.

(** * C67: nothing fails *)
(** Whatever is sent, and however often: no assertion, no undefined behaviour; and letting the simulator go on ends with nothing
    left to do. *)
Theorem isl_network_safe : forall w ops r, w_linked w -> w_run w ops = Some r -> exists x, r = Ok x.
Proof.
  intros w ops r Ln R.
  assert (G : forall ops ns y r, l_inv (isl_step (w_tx w) (w_rate w) (w_fits w)) (isl_spread (w_tx w) (w_rate w) (w_delay w) (w_success w) (w_channel w)) isl_hears
     (fun _ => tt) (fun i => t_inv (w_tx w (w_rate w i))) ns y ->
     l_run (isl_step (w_tx w) (w_rate w) (w_fits w)) (fun i => w_tx w (w_rate w i)) (isl_spread (w_tx w) (w_rate w) (w_delay w) (w_success w) (w_channel w)) isl_hears y ops = Some r -> exists x, r = Ok x).
  { clear ops r R. induction ops as [|o ops IH]; intros ns y r I R; cbn [l_run] in R; [injection R as <-; eauto|].
    destruct (l_step _ _ _ _ y o) as [r1|] eqn:S; [|discriminate].
    assert (S1 : exists x, r1 = Ok x).
    { eapply (safe_step _ (fun i => w_tx w (w_rate w i)) _ _ _ (fun i => t_inv (w_tx w (w_rate w i)))) with (known := fun _ _ _ => False); [| | | | | | | | | | |exact I| |exact S].
      - apply (isl_dur_pos w Ln).
      - apply (isl_hop_pos w Ln).
      - apply (isl_inv_init w).
      - intros i e tr T. exact T.
      - apply (isl_inv_step w Ln).
      - intros t i u p. eexists. apply (isl_spread_eq w Ln).
      - intros i e t u p H. apply i_some_send. exact H.
      - intros i e c H. eapply i_some_done. exact H.
      - intros i u [].
      - intros i e o' e' ev u _ [].
      - intros i e tr o' r' I' S' _. eapply i_safe; eauto.
      - intros i u _ []. }
    destruct S1 as [[y1 n1] ->]. destruct (l_run _ _ _ _ y1 ops) as [r2|] eqn:R2; [|discriminate].
    assert (I1 : l_inv (isl_step (w_tx w) (w_rate w) (w_fits w)) (isl_spread (w_tx w) (w_rate w) (w_delay w) (w_success w) (w_channel w)) isl_hears
     (fun _ => tt) (fun i => t_inv (w_tx w (w_rate w i))) (ns ++ n1) y1).
    { eapply (l_step_inv _ (fun i => w_tx w (w_rate w i))); [apply (isl_dur_pos w Ln)|apply (isl_hop_pos w Ln)|apply (isl_inv_init w)| |apply (isl_inv_step w Ln)|exact I|exact S].
      intros i e tr T. exact T. }
    destruct (IH _ _ _ I1 R2) as [[y2 n2] ->]. injection R as <-. eauto. }
  eapply G; [|exact R]. apply (isl_run_inv w Ln [] _ []). reflexivity.
Qed.
Print Assumptions isl_network_safe.

Theorem isl_network_rests : forall w ops y ns, w_linked w -> w_run w ops = Some (Ok (y, ns)) ->
  exists k y' ns', w_run w (ops ++ repeat LNext k) = Some (Ok (y', ns')) /\ l_queue y' = [].
Proof.
  intros w ops y ns Ln R.
  eapply (l_settles _ (fun i => w_tx w (w_rate w i)) _ _ _ (fun i => t_inv (w_tx w (w_rate w i)))) with (known := fun _ _ _ => False); [| | | | | | | | | | |exact R].
  - apply (isl_dur_pos w Ln).
  - apply (isl_hop_pos w Ln).
  - apply (isl_inv_init w).
  - intros i e tr T. exact T.
  - apply (isl_inv_step w Ln).
  - intros t i u p. eexists. apply (isl_spread_eq w Ln).
  - intros i e t u p H. apply i_some_send. exact H.
  - intros i e c H. eapply i_some_done. exact H.
  - intros i u [].
  - intros i e o e' ev u _ [].
  - intros i e tr o' r' I' S' _. eapply i_safe; eauto.
Qed.
Print Assumptions isl_network_rests.

(** * C67: nothing is lost, made up or doubled *)

(** Each transmission makes one drop trace, or one frame at the other end, which is passed up after the propagation delay
    and the transmission time. *)
Theorem isl_network_conserves : forall w ops y ns, w_linked w -> w_run w ops = Some (Ok (y, ns)) ->
  obeyed ns = ordered ops /\ StronglySorted Z.le (map k_time ns) /\
  (forall i, s_run (i_step (w_fits w i) (w_tx w (w_rate w i))) s_init (dev_ops i ns) = Some (Ok (l_dev y i, dev_events i ns))) /\
  dropped ns = map (fun s => (sd_time s, sd_from s, sd_uid s)) (filter (fun s => negb (w_reaches w s)) (sendings ns)) /\
  Permutation (passed ns ++ arriving (l_queue y) ++ flying (l_queue y)) (map (w_frame w) (filter (w_reaches w) (sendings ns))) /\
  (forall t f ok, In (KArrive t f ok) ns -> ok = true /\ t = fl_arr f) /\
  (forall t f, In (KUp t f) ns -> t = fl_arr f + fl_lasts f).
Proof.
  intros w ops y ns Ln R. pose proof (isl_run_inv w Ln ops y ns R) as I.
  split; [exact (isl_obeys w Ln ops y ns R)|]. split; [apply I|]. split; [exact (li_dev _ _ _ _ _ _ _ I)|].
  split; [|split; [|split]].
  - rewrite (li_drop _ _ _ _ _ _ _ I). apply (isl_missed w Ln).
  - rewrite <- (isl_carried w Ln), <- (li_fly _ _ _ _ _ _ _ I), app_assoc. apply Permutation_app_tail.
    rewrite (li_arr _ _ _ _ _ _ _ I), (isl_all_heard w ns y I). reflexivity.
  - intros t f ok H. apply in_split in H. destruct H as (n1 & n2 & E). destruct (li_heard _ _ _ _ _ _ _ I _ _ _ _ _ E) as [-> ->]. auto.
  - apply I.
Qed.
Print Assumptions isl_network_conserves.

(** * C67: in order *)
Lemma to_peer : forall w, w_linked w -> forall r l,
  filter (fun f => (fl_to f =? r)%nat) (map (w_frame w) (filter (w_reaches w) l))
  = map (w_frame w) (filter (w_reaches w) (filter (fun s => (sd_from s =? w_peer w r)%nat) l)).
Proof.
  intros w Ln r. induction l as [|s l IH]; [reflexivity|]. cbn [filter].
  assert (E : (w_peer w (sd_from s) =? r)%nat = (sd_from s =? w_peer w r)%nat).
  { pose proof (ws_peer w Ln) as P. destruct (Nat.eqb_spec (w_peer w (sd_from s)) r) as [A|A], (Nat.eqb_spec (sd_from s) (w_peer w r)) as [B|B]; try reflexivity.
    - exfalso. apply B. rewrite <- A. symmetry. apply P.
    - exfalso. apply A. rewrite B. apply P. }
  destruct (w_reaches w s) eqn:Rs; [cbn [map filter w_frame fl_to]; rewrite E|]; destruct (sd_from s =? w_peer w r)%nat; cbn [map filter]; rewrite ?Rs; cbn [map]; rewrite IH; reflexivity.
Qed.

(** If no frame can overtake another on the way, each end passes up, in order, the frames that reached it, and those it
    has not passed up yet are the last ones. *)
Theorem isl_in_order : forall w ops y ns r, w_linked w -> no_overtaking w -> w_run w ops = Some (Ok (y, ns)) ->
  exists rest, map (w_frame w) (filter (w_reaches w) (sent_by (w_peer w r) ns)) = passed_at r ns ++ rest /\
    Permutation (filter (fun f => (fl_to f =? r)%nat) (arriving (l_queue y) ++ flying (l_queue y))) rest.
Proof.
  intros w ops y ns r Ln No R. pose proof (isl_run_inv w Ln ops y ns R) as I.
  destruct (isl_network_conserves w ops y ns Ln R) as (_ & _ & _ & _ & Pe & _ & Up).
  assert (Fp : forall (f : flight -> bool) l l', Permutation l l' -> Permutation (filter f l) (filter f l')).
  { clear. intros f l l' P. induction P as [|x l l' P IH|x y l|l l' l'' P1 IH1 P2 IH2]; cbn [filter].
    - constructor.
    - destruct (f x); [constructor|]; exact IH.
    - destruct (f x), (f y); first [apply perm_swap|reflexivity].
    - etransitivity; eassumption. }
  apply (Fp (fun f => (fl_to f =? r)%nat)) in Pe. rewrite filter_app, (to_peer w Ln) in Pe. unfold sent_by, passed_at.
  apply (sorted_prefix _ fl_end) in Pe; [exact Pe| | |].
  - set (i := w_peer w r). assert (Sp : StronglySorted (fun a b => sd_time a + w_tx w (w_rate w i) (sd_uid a) <= sd_time b) (filter (from i) (sendings ns))).
    { eapply (sendings_spaced _ (fun i => w_tx w (w_rate w i))); [apply (isl_dur_pos w Ln)| |exact I]. intros j e tr T. exact T. }
    change (fun s => (sd_from s =? i)%nat) with (from i). apply (sorted_filter _ _ (w_reaches w)) in Sp.
    assert (Fi : Forall (fun s => sd_from s = i) (filter (w_reaches w) (filter (from i) (sendings ns)))).
    { apply Forall_forall. intros s Hs. apply filter_In in Hs. destruct Hs as [Hs _]. apply filter_In in Hs. destruct Hs as [_ Hs]. apply Nat.eqb_eq in Hs. exact Hs. }
    clearbody i. clear - No Sp Fi. induction Sp as [|s l Sp IH Fa]; [constructor|]. inversion Fi as [|? ? F1 F2]. cbn [map]. constructor; [auto|].
    apply Forall_forall. intros f Hf. apply in_map_iff in Hf. destruct Hf as (s' & <- & Hs'). rewrite Forall_forall in Fa, F2.
    specialize (Fa _ Hs'). specialize (F2 _ Hs'). unfold fl_end, w_frame. cbn [fl_arr fl_lasts]. rewrite F2, F1 in *.
    exact (No i _ _ _ (sd_uid s') Fa).
  - assert (S : StronglySorted Z.le (map fl_end (passed ns))) by (eapply passed_sorted; exact I).
    clear - S. induction (passed ns) as [|f l IH]; [constructor|]. cbn [map filter] in *. inversion S as [|? ? S1 S2]; subst.
    destruct (fl_to f =? r)%nat; [|auto]. cbn [map]. constructor; [auto|]. apply Forall_forall. intros e He. apply in_map_iff in He.
    destruct He as (g & <- & Hg). apply filter_In in Hg. rewrite Forall_forall in S2. apply S2, in_map. tauto.
  - intros f g Hf Hg. apply filter_In in Hf, Hg. eapply (to_come _ (fun i => w_tx w (w_rate w i))); [apply (isl_dur_pos w Ln)|apply (isl_hop_pos w Ln)|exact I|apply Hf|apply Hg].
Qed.
Print Assumptions isl_in_order.

(** At rest, what an end has passed up is exactly what its peer accepted, in that order, without what the success model
    dropped, each at the time of the schedule of C41 plus the delay and the transmission time. *)
Theorem isl_delivers : forall w ops y ns r, w_linked w -> no_overtaking w -> w_run w ops = Some (Ok (y, ns)) -> l_queue y = [] ->
  let i := w_peer w r in
  passed_at r ns = map (w_frame w) (filter (w_reaches w) (sent_by i ns)) /\
  map (fun s => (sd_time s, sd_uid s)) (sent_by i ns) = in_turn (w_tx w (w_rate w i)) 0 (requests (dev_events i ns)).
Proof.
  intros w ops y ns r Ln No R Q i. pose proof (isl_run_inv w Ln ops y ns R) as I. split.
  - destruct (isl_in_order w ops y ns r Ln No R) as (rest & E & P). rewrite Q in P. cbn in P. apply Permutation_nil in P. subst rest.
    rewrite app_nil_r in E. symmetry. exact E.
  - unfold sent_by. change (fun s => (sd_from s =? i)%nat) with (from i). rewrite (device_sendings _ _ _ _ _ _ y i I), map_map. cbn [sd_time sd_uid].
    eapply (at_rest _ (fun i => w_tx w (w_rate w i))) in I as Rest; [| |exact Q]; [|intros j e tr T; exact T]. destruct Rest as [St _]. exact St.
Qed.
Print Assumptions isl_delivers.

(** Constant delays and packets that take some time cannot overtake. *)
Lemma constant_delays : forall w, (forall r u, 0 < w_tx w r u) -> (forall t t' i j, w_delay w t i j = w_delay w t' i j) -> no_overtaking w.
Proof. intros w T D i t t' u v j H. unfold j in *. rewrite (D t' t). specialize (T (w_rate w i) v). lia. Qed.

(** Devices 0 and 1 are linked, and 2 and 3.  The second packet of device 0 is dropped; packets of 3 go to 2 alone. *)
Definition other (i : nat) : nat := if Nat.even i then S i else Nat.pred i.
Definition pairs : islnet := mkIsl (fun _ u => 5 + Z.abs u) (fun _ => 1) (fun _ _ _ => 3) (fun _ u _ _ => negb (u =? 2))
  (fun i => if Nat.even i then mkSS [i; other i] true else mkSS [other i; i] true) other (fun _ q _ => Nat.ltb (length q) 5).
Lemma other_other : forall i, other (other i) = i.
Proof.
  intros i. unfold other. destruct (Nat.even i) eqn:E.
  - rewrite Nat.even_succ, <- Nat.negb_even, E. reflexivity.
  - destruct i as [|i]; [discriminate|]. rewrite Nat.even_succ, <- Nat.negb_even in E. cbn [Nat.pred]. destruct (Nat.even i); [reflexivity|discriminate].
Qed.
Lemma pairs_linked : w_linked pairs /\ no_overtaking pairs.
Proof.
  split; [|apply constant_delays; [intros; cbn [pairs w_tx]; lia|reflexivity]]. constructor; cbn [pairs w_tx w_delay w_peer w_channel]; try (intros; lia).
  - exact other_other.
  - intros i. destruct (Nat.even i); auto.
Qed.
Example isl_network_case :
  match w_run pairs ([LSend 10 0 1 7; LSend 11 3 4 7; LSend 12 0 2 7; LSend 12 0 3 7; LSend 12 1 5 7] ++ repeat LNext 13) with
  | Some (Ok (y, ns)) =>
      l_queue y = [] /\ map (fun s => (sd_time s, sd_uid s)) (sent_by 0 ns) = [(10, 1); (16, 2); (23, 3)] /\ dropped ns = [(16, 0%nat, 2)] /\
      map (fun f => (fl_end f, fl_uid f)) (passed_at 1 ns) = [(19, 1); (34, 3)] /\
      map (fun f => (fl_end f, fl_uid f)) (passed_at 0 ns) = [(25, 5)] /\
      map (fun f => (fl_end f, fl_uid f)) (passed_at 2 ns) = [(23, 4)] /\ passed_at 3 ns = []
  | _ => False
  end.
Proof. vm_compute. repeat split. Qed.

(** If the delay falls fast enough a frame does overtake: the hypothesis is needed. *)
Definition closing : islnet := mkIsl (fun _ u => 5) (fun _ => 1) (fun t _ _ => Z.max 0 (100 - 10 * t)) (fun _ _ _ _ => true)
  (w_channel pairs) other (fun _ _ _ => true).
Example isl_overtaking_case :
  match w_run closing ([LSend 0 0 1 7; LSend 1 0 2 7] ++ repeat LNext 6) with
  | Some (Ok (y, ns)) => map fl_uid (passed_at 1 ns) = [2; 1] /\ map sd_uid (sent_by 0 ns) = [1; 2]
  | _ => False
  end.
Proof. vm_compute. repeat split. Qed.
