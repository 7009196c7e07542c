(** Counting packets and events in a network of inter-satellite links. *)
From Coq Require Import ZArith List Lia Bool Arith Permutation Sorted.
From Verif Require Import Base SatAddrModel DeviceModel DeviceSpec DeviceProofs ChannelModel LinkModel LinkSpec LinkProofs LinkDevices
  IslNetSpec IslNetProps.
Import ListNotations.
Open Scope Z_scope.

(** A device and a packet. *)
Definition pair_dec : forall x y : nat * Z, {x = y} + {x <> y}.
Proof. decide equality; [apply Z.eq_dec|apply Nat.eq_dec]. Defined.

Definition sent_pairs (ops : list (lop (F := unit))) : list (nat * Z) :=
  flat_map (fun o => match o with LSend _ i u _ => [(i, u)] | _ => [] end) ops.
Definition accepted_pairs (ns : list (knote unit)) : list (nat * Z) :=
  flat_map (fun n => match n with KDev _ i _ ev => flat_map (fun e => match e with SAccept _ u _ => [(i, u)] | _ => [] end) ev | _ => [] end) ns.
Definition refused_pairs (ns : list (knote unit)) : list (nat * Z) :=
  flat_map (fun n => match n with KDev _ i _ ev => flat_map (fun e => match e with SRefuse u => [(i, u)] | _ => [] end) ev | _ => [] end) ns.
Definition aired_pairs (ns : list (knote unit)) : list (nat * Z) := map (fun s => (sd_from s, sd_uid s)) (sendings ns).

Lemma part_by_count : forall A (dec : forall x y : A, {x = y} + {x <> y}) (l l' : list A),
  (forall x, (count_occ dec l x <= count_occ dec l' x)%nat) -> exists rest, Permutation (l ++ rest) l'.
Proof.
  intros A dec. induction l as [|a l IH]; intros l' H; [exists l'; reflexivity|].
  assert (Ha : In a l'). { apply (count_occ_In dec). specialize (H a). cbn [count_occ] in H. destruct (dec a a); [lia|contradiction]. }
  apply in_split in Ha. destruct Ha as (l1 & l2 & ->). destruct (IH (l1 ++ l2)) as [rest P].
  - intros x. specialize (H x). rewrite !count_occ_app in *. cbn [count_occ] in H. destruct (dec a x); lia.
  - exists rest. cbn. rewrite P. apply Permutation_middle.
Qed.

Section Count.
Variable w : islnet.
Hypothesis Ln : w_linked w.

(** Each note of a device is a step of the device. *)
Definition stepped (n : knote unit) : Prop :=
  match n with KDev _ i o ev => exists d d', i_step (w_fits w i) (w_tx w (w_rate w i)) d o = Some (Ok (d', ev)) | _ => True end.
Definition nexts (ops : list (lop (F := unit))) : nat := length (filter (fun o => match o with LNext => true | _ => false end) ops).
Definition event_notes (ns : list (knote unit)) : nat :=
  length (filter (fun n => match n with KDev _ _ SComplete _ => true | KArrive _ _ _ => true | KUp _ _ => true | _ => false end) ns).

Lemma run_notes : forall ops y y' ns, isl_run (w_tx w) (w_rate w) (w_delay w) (w_success w) (w_channel w) (w_fits w) y ops = Some (Ok (y', ns)) ->
  Forall stepped ns /\ event_notes ns = nexts ops.
Proof.
  induction ops as [|o ops IH]; intros y y' ns R; unfold isl_run in R; cbn [l_run] in R; [injection R as <- <-; split; [constructor|reflexivity]|].
  destruct (l_step _ _ _ _ y o) as [[[y1 n1]| | |]|] eqn:E; try discriminate.
  destruct (l_run _ _ _ _ y1 ops) as [[[y2 n2]| | |]|] eqn:R2; try discriminate. injection R as <- <-.
  destruct (IH _ _ _ R2) as [A B].
  assert (D : forall yy t i oo, device_call (isl_step (w_tx w) (w_rate w) (w_fits w)) (fun i => w_tx w (w_rate w i))
     (isl_spread (w_tx w) (w_rate w) (w_delay w) (w_success w) (w_channel w)) yy t i oo = Ok (y1, n1) ->
     Forall stepped n1 /\ event_notes n1 = match oo with SComplete => 1%nat | _ => 0%nat end).
  { intros yy t i oo H. apply device_call_ok in H. destruct H as (d & ev & q & n & St & Fl & _ & ->).
    destruct (fly_facts _ _ _ isl_hears (fun _ => tt) _ (isl_dur_pos w Ln) (isl_hop_pos w Ln) (isl_inv_init w) (fun _ _ _ T => T) (isl_inv_step w Ln) _ _ _ _ _ _ Fl) as (_ & _ & _ & _ & N & _).
    assert (X : Forall stepped n /\ event_notes n = 0%nat).
    { clear - N. induction n as [|x n IH]; [split; [constructor|reflexivity]|]. destruct (N x (or_introl eq_refl)) as [u ->].
      destruct IH as [A B]; [intros; apply N; right; assumption|]. split; [constructor; [exact Logic.I|exact A]|exact B]. }
    destruct X as [X1 X2]. split; [constructor; [|exact X1]; exists (l_dev yy i), d; exact St|].
    unfold event_notes in *. cbn [filter]. destruct oo; cbn [length]; rewrite X2; reflexivity. }
  assert (C : Forall stepped n1 /\ event_notes n1 = nexts [o]).
  { destruct o as [t i u p|t r x|]; cbn [l_step] in E.
    - destruct (ready y t); [|discriminate]. apply some_inj in E. exact (D _ _ _ _ E).
    - destruct (ready y t); [|discriminate]. injection E as <- <-. split; [repeat constructor|reflexivity].
    - destruct (l_queue y) as [|[t e] q]; [discriminate|]. apply some_inj in E. destruct e as [i|f|f].
      + exact (D _ _ _ _ E).
      + injection E as <- <-. split; [repeat constructor|reflexivity].
      + injection E as <- <-. split; [repeat constructor|reflexivity]. }
  destruct C as [C1 C2]. split; [apply Forall_app; auto|].
  change (o :: ops) with ([o] ++ ops). unfold event_notes, nexts in *. rewrite !filter_app, !app_length. congruence.
Qed.

Lemma pairs_asked : forall ops y ns, w_run w ops = Some (Ok (y, ns)) -> Permutation (accepted_pairs ns ++ refused_pairs ns) (sent_pairs ops).
Proof.
  intros ops y ns R. destruct (run_notes _ _ _ _ R) as [St _].
  assert (E : sent_pairs ops = flat_map (fun o => match o with OrderSend _ i u _ => [(i, u)] | _ => [] end) (obeyed ns)).
  { rewrite (isl_obeys w Ln ops y ns R). clear. induction ops as [|o ops IH]; [reflexivity|]. change (o :: ops) with ([o] ++ ops).
    unfold sent_pairs, ordered in *. rewrite !flat_map_app, IH. f_equal. destruct o; reflexivity. }
  rewrite E. clear R E. induction ns as [|n ns IH]; [constructor|]. inversion St as [|? ? S1 S2]; subst. specialize (IH S2).
  change (n :: ns) with ([n] ++ ns). unfold accepted_pairs, refused_pairs, obeyed in *. rewrite !flat_map_app.
  destruct n as [t i o ev| | | |]; try exact IH. cbn [flat_map]. rewrite !app_nil_r. destruct S1 as (d & d' & S1).
  destruct o as [t' u p|]; cbn [i_step] in S1.
  - destruct (_ && _); [|discriminate]. apply some_inj in S1. unfold i_send in S1.
    assert (X : (exists t2, flat_map (fun e => match e with SAccept _ u _ => [(i, u)] | _ => [] end) ev = [(i, u)] /\
                  flat_map (fun e => match e with SRefuse u => [(i, u)] | _ => [] end) ev = [] /\ t2 = t') \/
                (flat_map (fun e => match e with SAccept _ u _ => [(i, u)] | _ => [] end) ev = [] /\
                  flat_map (fun e => match e with SRefuse u => [(i, u)] | _ => [] end) ev = [(i, u)])).
    { destruct (w_fits w i (s_queue d) u); [left; exists t'|right; injection S1 as <- <-; split; reflexivity].
      destruct (s_busy d); [injection S1 as <- <-; repeat split; reflexivity|].
      destruct (s_queue d ++ [u]); [injection S1 as <- <-; repeat split; reflexivity|]. cbn in S1. injection S1 as <- <-. repeat split; reflexivity. }
    destruct X as [(_ & -> & -> & _)|[-> ->]]; cbn [app].
    + cbn. constructor. exact IH.
    + cbn. rewrite <- Permutation_middle. constructor. exact IH.
  - destruct (s_pending d) as [|c l]; [discriminate|]. apply some_inj in S1. unfold i_complete in S1.
    destruct (s_queue d); [injection S1 as <- <-; exact IH|]. cbn in S1. injection S1 as <- <-. exact IH.
Qed.

Lemma count_accepted : forall ns i u, count_occ pair_dec (accepted_pairs ns) (i, u) = count_occ Z.eq_dec (map snd (requests (dev_events i ns))) u.
Proof.
  intros ns i u. induction ns as [|n ns IH]; [reflexivity|]. change (n :: ns) with ([n] ++ ns). unfold accepted_pairs in *.
  rewrite flat_map_app, dev_events_app, requests_app, map_app, !count_occ_app, IH. f_equal. destruct n as [t j o ev| | | |]; try reflexivity.
  unfold dev_events. cbn [flat_map]. rewrite !app_nil_r. clear. induction ev as [|e ev IH]; [destruct (j =? i)%nat; reflexivity|].
  cbn [flat_map]. rewrite count_occ_app, IH. destruct (Nat.eqb_spec j i) as [->|Ne].
  - destruct e as [t' v p|v|a]; try reflexivity. cbn [requests flat_map app map snd count_occ]. fold (requests ev).
    destruct (pair_dec (i, v) (i, u)) as [E|E], (Z.eq_dec v u) as [F|F]; try reflexivity; exfalso; [apply F; congruence|apply E; congruence].
  - destruct e as [t' v p|v|a]; try reflexivity. cbn [count_occ]. destruct (pair_dec (j, v) (i, u)) as [E|E]; [congruence|reflexivity].
Qed.
Lemma count_aired : forall ns y i u, l_inv (isl_step (w_tx w) (w_rate w) (w_fits w)) (isl_spread (w_tx w) (w_rate w) (w_delay w) (w_success w) (w_channel w)) isl_hears
     (fun _ => tt) (fun i => t_inv (w_tx w (w_rate w i))) ns y ->
  count_occ pair_dec (aired_pairs ns) (i, u) = count_occ Z.eq_dec (map a_uid (airings (dev_events i ns))) u.
Proof.
  intros ns y i u I. pose proof (device_sendings _ _ _ _ _ _ y i I) as D.
  assert (E : map a_uid (airings (dev_events i ns)) = map sd_uid (filter (from i) (sendings ns))) by (rewrite D, map_map; reflexivity).
  rewrite E. unfold aired_pairs. clear. induction (sendings ns) as [|s l IH]; [reflexivity|]. cbn [map filter count_occ]. unfold from at 1.
  destruct (Nat.eqb_spec (sd_from s) i) as [<-|Ne]; cbn [map count_occ]; rewrite IH.
  - destruct (pair_dec _ _) as [E|E], (Z.eq_dec (sd_uid s) u) as [F|F]; try reflexivity; exfalso; [apply F; congruence|apply E; congruence].
  - destruct (pair_dec _ _) as [E|E]; [congruence|reflexivity].
Qed.

(** Every packet given to a device goes out once, waits, or was refused; at rest none waits. *)
Lemma isl_accounts : forall ops y ns, w_run w ops = Some (Ok (y, ns)) ->
  exists waiting, Permutation (aired_pairs ns ++ waiting ++ refused_pairs ns) (sent_pairs ops) /\ (l_queue y = [] -> waiting = []).
Proof.
  intros ops y ns R. pose proof (isl_run_inv w Ln ops y ns R) as I.
  assert (T : forall i, exists rest, map snd (requests (dev_events i ns)) = map a_uid (airings (dev_events i ns)) ++ rest /\ (l_queue y = [] -> rest = [])).
  { intros i. assert (Fu : forall rest, in_turn (w_tx w (w_rate w i)) 0 (requests (dev_events i ns)) = starts (airings (dev_events i ns)) ++ rest ->
      map snd (requests (dev_events i ns)) = map a_uid (airings (dev_events i ns)) ++ map snd rest).
    { intros rest E. rewrite <- (in_turn_uids (w_tx w (w_rate w i)) (requests (dev_events i ns)) 0), E, map_app. f_equal. unfold starts. rewrite map_map. reflexivity. }
    destruct (l_queue y) eqn:Q.
    - assert (A : in_turn (w_tx w (w_rate w i)) 0 (requests (dev_events i ns)) = starts (airings (dev_events i ns)) ++ []).
      { rewrite app_nil_r. symmetry. eapply (at_rest _ (fun i => w_tx w (w_rate w i))); [|exact I|exact Q]. intros j d tr H. exact H. }
      exists []. split; [exact (Fu _ A)|auto].
    - destruct (li_inv _ _ _ _ _ _ _ I i) as [_ Sh _ _ _].
      destruct Sh as [(_ & _ & _ & _ & T)|(c & m & _ & _ & _ & _ & T & _)].
      + exists []. split; [apply (Fu []); rewrite app_nil_r; symmetry; exact T|auto].
      + eexists. split; [exact (Fu _ T)|discriminate]. }
  destruct (part_by_count _ pair_dec (aired_pairs ns) (accepted_pairs ns)) as [waiting P].
  { intros [i u]. rewrite (count_aired ns y i u I), count_accepted. destruct (T i) as (rest & -> & _). rewrite count_occ_app. lia. }
  exists waiting. split.
  - rewrite app_assoc, P. exact (pairs_asked ops y ns R).
  - intros Q. assert (L : forall x, count_occ pair_dec waiting x = 0%nat).
    { intros [i u]. pose proof (proj1 (Permutation_count_occ pair_dec _ _) P (i, u)) as C. rewrite count_occ_app, (count_aired ns y i u I), count_accepted in C.
      destruct (T i) as (rest & E & Z0). rewrite E, (Z0 Q), app_nil_r in C. lia. }
    destruct waiting as [|x l]; [reflexivity|]. specialize (L x). cbn in L. destruct (pair_dec x x); [discriminate|contradiction].
Qed.

(** Each packet takes at most three events. *)
Definition finished (ns : list (knote unit)) : list nat := flat_map (fun n => match n with KDev _ i SComplete _ => [i] | _ => [] end) ns.
Lemma device_finished : forall i ops d tr d' ev, t_inv (w_tx w (w_rate w i)) d tr -> s_run (i_step (w_fits w i) (w_tx w (w_rate w i))) d ops = Some (Ok (d', ev)) ->
  (length (filter (fun o => match o with SComplete => true | _ => false end) ops) + length (s_pending d') = length (s_pending d) + length (airings ev))%nat.
Proof.
  intros i. induction ops as [|o ops IH]; intros d tr d' ev T R; cbn [s_run] in R; [injection R as <- <-; cbn; lia|].
  destruct (i_step _ _ d o) as [[[d1 e1]| | |]|] eqn:S; try discriminate. destruct (s_run _ d1 ops) as [[[d2 e2]| | |]|] eqn:R2; try discriminate. injection R as <- <-.
  destruct (isl_inv_step w Ln i d tr o d1 e1 T S) as [T1 M]. specialize (IH _ _ _ _ T1 R2). rewrite airings_app, app_length. cbn [filter].
  inversion M as [t u p tags O1 |t u p tags O1 B|t u p p' tags O1 B|c tags P1 Q1|c u q p' tags P1 Q1]; subst; cbn [s_pending airings flat_map app length] in *; try lia.
  - destruct (t_shape _ _ _ T) as [(_ & P & _)|(B' & _)]; [rewrite P; cbn; lia|congruence].
  - rewrite P1. cbn [length]. lia.
  - rewrite P1. cbn [length]. lia.
Qed.

Lemma isl_events : forall ops y ns, w_run w ops = Some (Ok (y, ns)) -> (nexts ops <= 3 * length (sent_pairs ops))%nat.
Proof.
  intros ops y ns R. pose proof (isl_run_inv w Ln ops y ns R) as I. destruct (run_notes _ _ _ _ R) as [_ <-].
  destruct (isl_accounts ops y ns R) as (waiting & P & _). apply Permutation_length in P. rewrite !app_length in P.
  assert (Se : (length (sendings ns) <= length (sent_pairs ops))%nat) by (unfold aired_pairs in P; rewrite map_length in P; lia).
  assert (Ev : event_notes ns = (length (finished ns) + length (arrived ns) + length (passed ns))%nat).
  { clear. induction ns as [|n ns IH]; [reflexivity|]. change (n :: ns) with ([n] ++ ns). unfold event_notes, finished, arrived, passed in *.
    rewrite filter_app, !flat_map_app, !app_length. rewrite IH. destruct n as [t i [|] ev| | | |]; cbn [filter flat_map app length]; lia. }
  assert (Ca : (length (all_carried (isl_spread (w_tx w) (w_rate w) (w_delay w) (w_success w) (w_channel w)) (sendings ns)) <= length (sendings ns))%nat).
  { rewrite (isl_carried w Ln), map_length. clear. induction (sendings ns) as [|s l IH]; [reflexivity|]. cbn [filter]. destruct (w_reaches w s); cbn [length]; lia. }
  assert (Ar : (length (arrived ns) <= length (sendings ns))%nat).
  { pose proof (Permutation_length (li_fly _ _ _ _ _ _ _ I)) as L. rewrite app_length in L. lia. }
  assert (Pa : (length (passed ns) <= length (sendings ns))%nat).
  { pose proof (Permutation_length (li_arr _ _ _ _ _ _ _ I)) as L. rewrite app_length, (isl_all_heard w ns y I) in L. lia. }
  assert (Fi : (length (finished ns) <= length (sendings ns))%nat).
  { destruct (part_by_count _ Nat.eq_dec (finished ns) (map sd_from (sendings ns))) as [rest P2].
    - intros i. pose proof (device_finished i _ _ _ _ _ (t_inv_init _) (li_dev _ _ _ _ _ _ _ I i)) as L. cbn [s_init s_pending length] in L.
      assert (E1 : count_occ Nat.eq_dec (finished ns) i = length (filter (fun o => match o with SComplete => true | _ => false end) (dev_ops i ns))).
      { clear. induction ns as [|n ns IH]; [reflexivity|]. change (n :: ns) with ([n] ++ ns). unfold finished in *. rewrite flat_map_app, count_occ_app, dev_ops_app, filter_app, app_length, IH.
        f_equal. destruct n as [t j o ev| | | |]; try reflexivity. unfold dev_ops. cbn [flat_map]. rewrite !app_nil_r. destruct o as [t' u p|]; destruct (Nat.eqb_spec j i) as [->|Ne]; cbn; try reflexivity.
        - destruct (Nat.eq_dec i i); [reflexivity|contradiction].
        - destruct (Nat.eq_dec j i); [contradiction|reflexivity]. }
      assert (E2 : count_occ Nat.eq_dec (map sd_from (sendings ns)) i = length (airings (dev_events i ns))).
      { transitivity (length (filter (from i) (sendings ns))); [|rewrite (device_sendings _ _ _ _ _ _ y i I), map_length; reflexivity].
        clear. induction (sendings ns) as [|s l IH]; [reflexivity|]. cbn [map count_occ filter]. unfold from at 1. rewrite IH.
        destruct (Nat.eqb_spec (sd_from s) i), (Nat.eq_dec (sd_from s) i); try contradiction; reflexivity. }
      lia.
    - apply Permutation_length in P2. rewrite app_length, map_length in P2. lia. }
  lia.
Qed.
End Count.
