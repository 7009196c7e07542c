(** Theorems about the devices. *)
From Coq Require Import ZArith List Lia Bool Ascii String Permutation.
From Verif Require Import Base SatAddrModel AddrTextModel SatAddrProofs AddrTextProps DeviceModel DeviceSpec DeviceProofs.
Import ListNotations.
Open Scope Z_scope.

(** * C36: ground station transmission *)

(** Every schedule of sends, retargetings and MAC callbacks, with a MAC that reports once per packet. *)
Theorem ground_fifo : forall fits a p ops r,
  g_run fits (fun _ => 1%nat) (g_init a p) ops = Some r ->
  r <> UB /\ r <> Abort /\ (NoDup (sends ops) -> exists x, r = Ok x) /\
  forall d tr, r = Ok (d, tr) ->
    (* in order, exactly once *)
    accepted tr = handed tr ++ g_queue d /\
    (* hand, air, done, for one packet after the other *)
    (exists ph, phase_of tr = Some ph /\
      (ph = PIdle -> g_queue d = [] /\ accepted tr = handed tr) /\ (ph = PIdle <-> g_busy d = false)).
Proof.
  intros fits a p ops r R. change (fun _ : Z => 1%nat) with once in R.
  destruct (g_run_ok fits ops (g_init a p) [] r (g_init_inv a p) R) as (A & B & C).
  split; [exact A|]. split; [exact B|]. split. { intros N. apply C; [exact N|]. reflexivity. }
  intros d tr ->.
  pose proof (g_run_inv fits once g_inv (g_step_inv fits) ops (g_init a p) [] d tr (g_init_inv a p) R) as [Fi Ph So Id Tg Nd].
  cbn [app] in *. split; [exact Fi|].
  rewrite Ph. destruct (g_phase d) as [ph|] eqn:E; [|congruence]. exists ph. split; [reflexivity|].
  destruct (g_phase_cases d) as [[Bz M]|[Bz [j M]]]; [congruence| |].
  - unfold g_phase in E. rewrite Bz, M in E. injection E as <-. split; [|tauto].
    intros _. split; [auto|]. rewrite Fi, Id by exact Bz. apply app_nil_r.
  - unfold g_phase in E. rewrite Bz, M in E. destruct (job_on_air j); injection E as <-; (split; [discriminate|]); split; congruence.
Qed.
Print Assumptions ground_fifo.

(** Send says no exactly when the queue has no room for the packet, given the packets still waiting. *)
Theorem ground_send_verdict : forall fits a p ops d tr u proto r,
  g_run fits (fun _ => 1%nat) (g_init a p) ops = Some (Ok (d, tr)) ->
  g_run fits (fun _ => 1%nat) (g_init a p) (ops ++ [GSend u proto]) = Some r ->
  r = Assert \/
  exists d' ev, r = Ok (d', tr ++ ev) /\
    (In (EAccept u) ev <-> fits (waiting tr) u = true) /\ (In (ERefuse u) ev <-> fits (waiting tr) u = false).
Proof.
  intros fits a p ops d tr u proto r R R2. change (fun _ : Z => 1%nat) with once in *.
  pose proof (g_run_inv fits once g_inv (g_step_inv fits) ops (g_init a p) [] d tr (g_init_inv a p) R) as I.
  cbn [app] in I. pose proof (gi_fifo _ _ I) as Fi.
  assert (W : waiting tr = g_queue d).
  { unfold waiting. rewrite Fi, skipn_app, skipn_all, Nat.sub_diag. reflexivity. }
  rewrite W. rewrite g_run_app, R in R2. cbn [g_run] in R2.
  pose proof (g_step_fails fits d tr (GSend u proto) I) as F.
  destruct (g_step fits once d (GSend u proto)) as [[[d1 e1]| | |]|] eqn:St; try contradiction; try discriminate;
    [|left; congruence].
  injection R2 as <-. right. rewrite app_nil_r. exists d1, e1. split; [reflexivity|].
  cbn [g_step] in St. apply some_inj in St. unfold g_send in St. destruct (find_tag u (g_tags d)); [discriminate|].
  destruct (fits (g_queue d) u); [destruct (g_busy d)|].
  - injection St as <- <-. cbn. intuition; try discriminate.
  - destruct (g_transmit_start once _) as [[d2 e2]| | |] eqn:H in St; cbn in St; try discriminate.
    injection St as <- <-. unfold g_transmit_start in H. cbn in H.
    destruct (g_queue d ++ [u]); [discriminate|]. destruct (find_tag z _); [|discriminate].
    injection H as <- <-. cbn. intuition; discriminate.
  - injection St as <- <-. cbn. intuition; try discriminate.
Qed.
Print Assumptions ground_send_verdict.

(** Wherever it stands, if the MAC works on, everything accepted gets sent. *)
Theorem ground_drains : forall fits a p ops d tr,
  g_run fits (fun _ => 1%nat) (g_init a p) ops = Some (Ok (d, tr)) ->
  exists k d' tr', g_run fits (fun _ => 1%nat) (g_init a p) (ops ++ repeat (GMac 0) k) = Some (Ok (d', tr')) /\
    phase_of tr' = Some PIdle /\ accepted tr' = handed tr' /\ accepted tr' = accepted tr.
Proof.
  intros fits a p ops d tr R. change (fun _ : Z => 1%nat) with once in *.
  pose proof (g_run_inv fits once g_inv (g_step_inv fits) ops (g_init a p) [] d tr (g_init_inv a p) R) as I.
  cbn [app] in I. destruct (g_drain fits _ d tr eq_refl I) as (k & d' & ev & R2 & B).
  exists k, d', (tr ++ ev).
  assert (Full : g_run fits once (g_init a p) (ops ++ repeat (GMac 0) k) = Some (Ok (d', tr ++ ev))).
  { rewrite g_run_app, R, R2. reflexivity. }
  split; [exact Full|].
  pose proof (g_run_inv fits once g_inv (g_step_inv fits) _ (g_init a p) [] d' (tr ++ ev) (g_init_inv a p) Full) as I2.
  cbn [app] in I2. destruct I2 as [Fi Ph So Id Tg Nd].
  destruct (g_phase_cases d' So) as [[_ M]|[B' _]]; [|congruence].
  split. { rewrite Ph. unfold g_phase. rewrite B, M. reflexivity. }
  split. { rewrite Fi, (Id B). apply app_nil_r. }
  (* the MAC callbacks accept nothing *)
  assert (X : forall k d d' ev, g_run fits once d (repeat (GMac 0) k) = Some (Ok (d', ev)) -> accepted ev = []).
  { clear. induction k as [|k IH]; intros d d' ev R; cbn [repeat g_run] in R; [injection R as _ <-; reflexivity|].
    destruct (g_step fits once d (GMac 0)) as [[[d1 e1]| | |]|] eqn:St; try discriminate.
    destruct (g_run fits once d1 (repeat (GMac 0) k)) as [[[d2 e2]| | |]|] eqn:F; try discriminate.
    injection R as _ <-. rewrite accepted_app, (IH _ _ _ F), app_nil_r.
    cbn [g_step] in St. unfold g_mac_step in St. destruct (nth_error (g_mac d) 0); [|discriminate].
    destruct (job_on_air m); [|injection St as _ <-; reflexivity].
    apply some_inj in St. unfold g_transmit_complete in St. cbn [g_queue] in St.
    destruct (g_queue d); [injection St as _ <-; reflexivity|].
    destruct (g_transmit_start once _) as [[d3 e3]| | |] eqn:H in St; cbn in St; try discriminate.
    injection St as _ <-. unfold g_transmit_start in H. cbn in H. destruct (find_tag z _); [|discriminate].
    injection H as _ <-. reflexivity. }
  rewrite accepted_app, (X _ _ _ _ R2), app_nil_r. reflexivity.
Qed.
Print Assumptions ground_drains.

Definition le := LittleEndian.
Definition two (q : list Z) (_ : Z) : bool := Nat.ltb (List.length q) 2.

(** Five packets against a queue of two: 1 goes out at once, 2 and 3 wait, 4 is refused, 5 fits after 1 is done. *)
Example ground_case :
  match g_run two (fun _ => 1%nat) (g_init (sat_make le 0 1 2) 30)
    [GSend 1 7; GSend 2 7; GMac 0; GSend 3 7; GSend 4 7; GRetarget (sat_make le 0 1 3); GMac 0; GSend 5 8;
     GMac 0; GMac 0] with
  | Some (Ok (d, tr)) =>
      accepted tr = [1; 2; 3; 5] /\ handed tr = [1; 2; 3] /\ g_queue d = [5] /\ phase_of tr = Some (PHeld 3)
  | _ => False
  end.
Proof. vm_compute. repeat split. Qed.

(** * C38: destination, protocol and power are those of the Send call *)

(** For any MAC, however many copies it sends: what goes on the air for a packet is what was in force at its Send. *)
Theorem destination_of_send : forall fits copies a p ops d tr u tag,
  g_run fits copies (g_init a p) ops = Some (Ok (d, tr)) -> NoDup (sends ops) ->
  In (EAir u tag) tr ->
  exists l1 l2 proto a' p',
    ops = l1 ++ GSend u proto :: l2 /\
    a' = last (flat_map (fun o => match o with GRetarget b => [b] | _ => [] end) l1) a /\
    p' = last (flat_map (fun o => match o with GPower q => [q] | _ => [] end) l1) p /\
    tag = mkTag a' (u16 proto) p'.
Proof.
  intros fits copies a p ops d tr u tag R Nd In_.
  assert (M : meta_ok (sent_with a p ops) (g_init a p) []).
  { repeat split; cbn; tauto. }
  destruct (meta_run fits copies ops _ _ _ _ _ M (fun e H => H) R) as (_ & _ & H). cbn [app] in H.
  assert (K : In (u, tag) (sent_with a p ops)).
  { apply H. unfold air_tags. apply in_flat_map. exists (EAir u tag). split; [exact In_|left; reflexivity]. }
  clear - K. revert a p K. induction ops as [|o l IH]; intros a p K; [contradiction|].
  destruct o as [v proto|b|q|k]; cbn [sent_with] in K.
  - destruct K as [K|K].
    + injection K as -> <-. exists [], l, proto, a, p. repeat split.
    + destruct (IH a p K) as (l1 & l2 & pr & a' & p' & E & A & P & T).
      exists (GSend v proto :: l1), l2, pr, a', p'. subst. repeat split.
  - destruct (IH b p K) as (l1 & l2 & pr & a' & p' & E & A & P & T).
    exists (GRetarget b :: l1), l2, pr, a', p'. subst. repeat split.
    cbn [flat_map app]. rewrite last_cons. reflexivity.
  - destruct (IH a q K) as (l1 & l2 & pr & a' & p' & E & A & P & T).
    exists (GPower q :: l1), l2, pr, a', p'. subst. repeat split.
    cbn [flat_map app]. rewrite last_cons. reflexivity.
  - destruct (IH a p K) as (l1 & l2 & pr & a' & p' & E & A & P & T).
    exists (GMac k :: l1), l2, pr, a', p'. subst. repeat split.
Qed.
Print Assumptions destination_of_send.

(** Packet 2 waits behind 1 while the station turns to another satellite. *)
Example destination_case :
  match g_run two (fun _ => 1%nat) (g_init (sat_make le 0 1 2) 30)
    [GSend 1 7; GSend 2 8; GRetarget (sat_make le 0 1 3); GPower 33; GSend 3 9;
     GMac 0; GMac 0; GMac 0; GMac 0; GMac 0] with
  | Some (Ok (d, tr)) =>
      air_tags tr = [(1, mkTag (sat_make le 0 1 2) 7 30); (2, mkTag (sat_make le 0 1 2) 8 30); (3, mkTag (sat_make le 0 1 3) 9 33)]
  | _ => False
  end.
Proof. vm_compute. reflexivity. Qed.

(** * C39: a refused packet *)
Definition refused_packet_can_be_sent_again : Prop := forall fits a p ops d tr u proto,
  g_run fits (fun _ => 1%nat) (g_init a p) ops = Some (Ok (d, tr)) -> In (ERefuse u) tr ->
  exists x, g_run fits (fun _ => 1%nat) (g_init a p) (ops ++ [GSend u proto]) = Some (Ok x).

(** Not so: the tag put on it by the first call is still there.  This is true of every refused packet. *)
Theorem refused_packet_resend_partial : forall fits a p ops d tr u proto,
  g_run fits (fun _ => 1%nat) (g_init a p) ops = Some (Ok (d, tr)) -> In (ERefuse u) tr ->
  g_run fits (fun _ => 1%nat) (g_init a p) (ops ++ [GSend u proto]) = Some Assert.
Proof.
  intros fits a p ops d tr u proto R Rf. change (fun _ : Z => 1%nat) with once in *.
  set (I := fun d tr => g_inv d tr /\ forall u, refused tr u -> find_tag u (g_tags d) <> None
     /\ ~ In u (map job_uid (g_mac d) ++ g_queue d)).
  assert (J : I d ([] ++ tr)).
  { apply (g_run_inv fits once I) with (ops := ops) (d := g_init a p); [|split; [apply g_init_inv|intros ? []]|exact R].
    intros d0 tr0 o d' ev [A B] St. split; [eapply g_step_inv; eauto|eapply refused_step; eauto]. }
  destruct J as [_ J]. destruct (J u Rf) as [T _]. rewrite g_run_app, R. cbn [g_run g_step]. unfold g_send.
  destruct (find_tag u (g_tags d)); [reflexivity|contradiction].
Qed.
Print Assumptions refused_packet_resend_partial.

Definition refuse_ops : list gop := [GSend 1 7; GSend 2 7; GSend 3 7; GSend 4 7; GMac 0; GMac 0].
Theorem refused_packet_resend_refuted : ~ refused_packet_can_be_sent_again.
Proof.
  intros H. specialize (H two sat_default 30 refuse_ops).
  destruct (g_run two (fun _ => 1%nat) (g_init sat_default 30) refuse_ops) as [[[d tr]| | |]|] eqn:R; try (vm_compute in R; discriminate).
  specialize (H d tr 4 7 eq_refl). destruct H as [x H].
  - vm_compute in R. injection R as _ <-. vm_compute. tauto.
  - vm_compute in H. discriminate.
Qed.
Print Assumptions refused_packet_resend_refuted.

(** * C40, C41: devices on board *)

(** The transmissions begun follow, in order, the schedule in which each packet starts when it was accepted or when
    the previous one ends, whichever is later; those not begun are the queue, and lie ahead. *)
Definition serves (dur : Z -> Z) (d : sdev) (tr : list sevent) : Prop :=
  exists ahead,
    in_turn dur 0 (requests tr) = starts (airings tr) ++ ahead /\ map snd ahead = s_queue d /\
    Forall (fun e => fst e <= s_now d) (starts (airings tr)) /\ Forall (fun e => s_now d <= fst e) ahead /\
    (* idle: nothing queued, everything over *)
    (s_busy d = false -> s_queue d = [] /\ Forall (fun e => fst e + dur (snd e) <= s_now d) (starts (airings tr))) /\
    (* not idle: the last one is still on the air *)
    (s_busy d = true -> exists l s u, starts (airings tr) = l ++ [(s, u)] /\ s <= s_now d <= s + dur u).

Lemma serves_of_inv : forall dur, (forall u, 0 <= dur u) -> forall d tr, t_inv dur d tr -> serves dur d tr.
Proof.
  intros dur Dp d tr [Nw Sh Bg Ps Od].
  assert (Fin : forall r f e, In e (in_turn dur f r) -> fst e + dur (snd e) <= finish dur f r).
  { induction r as [|[t u] l IH]; intros f e; cbn; [tauto|]. intros [<-|H]; cbn; [|apply IH; exact H].
    clear - Dp. revert f t u. induction l as [|[t' u'] l IH]; intros f t u; cbn; [lia|].
    specialize (IH (Z.max f t + dur u) t' u'). pose proof (Dp u'). lia. }
  destruct Sh as [(B & P & Q & F & E)|(c & l & B & P & N & L & E & F)].
  - exists []. rewrite app_nil_r, Q. repeat split; auto; try congruence.
    apply Forall_forall. intros e He. rewrite E in He. apply Fin in He. lia.
  - exists (plan dur (c_end c) (s_queue d)). split; [exact E|]. split; [apply plan_uids|]. split; [exact Bg|].
    split; [|split; [congruence|]].
    + apply Forall_forall. intros e He. apply (plan_ge dur Dp) in He. lia.
    + intros _. exists l, (c_end c - dur (c_uid c)), (c_uid c). split; [exact L|]. split; [|lia].
      rewrite L in Bg. apply Forall_app in Bg. destruct Bg as [_ Bg]. inversion Bg. assumption.
Qed.

Theorem downlink_fifo : forall fits dur ops r, (forall u, 0 <= dur u) ->
  s_run (s_step fits dur) s_init ops = Some r ->
  r <> UB /\ r <> Abort /\ forall d tr, r = Ok (d, tr) ->
    serves dur d tr /\
    (* each with the protocol number of its own Send *)
    exists rest, map (fun e => (fst e, u16 (snd e))) (flat_map (fun e => match e with SAccept _ u p => [(u, p)] | _ => [] end) tr)
      = map (fun a => (a_uid a, a_proto a)) (airings tr) ++ rest.
Proof.
  intros fits dur ops r Dp R. destruct (d_run_ok dur Dp fits ops s_init [] r (d_init dur) R) as (A & B & C).
  split; [exact A|]. split; [exact B|]. intros d tr E. destruct (C d tr E) as [Ti _ _ As]. cbn [app] in *.
  split; [apply serves_of_inv; assumption|].
  exists (skipn (List.length (airings tr)) (asked tr)).
  assert (X : map (fun e => (fst e, u16 (snd e))) (flat_map (fun e => match e with SAccept _ u p => [(u, p)] | _ => [] end) tr) = asked tr).
  { clear. unfold asked. induction tr as [|[t u p|u|a] tr IH]; cbn; rewrite ?IH; reflexivity. }
  rewrite X. fold (frames (airings tr)).
  assert (Inj : forall l l' : list (Z * Z), map (fun e => (fst e, Some (snd e))) l = map (fun e => (fst e, Some (snd e))) l' -> l = l').
  { induction l as [|[a b] l IH]; intros [|[a' b'] l'] H; cbn in H; try discriminate; [reflexivity|].
    injection H as -> -> H. f_equal. apply IH, H. }
  assert (L : List.length (frames (airings tr)) = List.length (airings tr)) by apply map_length.
  assert (Fst : firstn (List.length (airings tr)) (asked tr) = frames (airings tr)).
  { apply Inj. rewrite <- firstn_map, As. rewrite <- L, <- (map_length (fun e : Z * Z => (fst e, Some (snd e)))).
    rewrite firstn_app, Nat.sub_diag, firstn_all. cbn. apply app_nil_r. }
  rewrite <- Fst. rewrite <- (firstn_skipn (List.length (airings tr)) (asked tr)) at 1. reflexivity.
Qed.
Print Assumptions downlink_fifo.

(** Fresh packets never fail. *)
Theorem downlink_runs : forall fits dur ops r, (forall u, 0 <= dur u) ->
  s_run (s_step fits dur) s_init ops = Some r -> NoDup (map fst (s_sends ops)) -> exists x, r = Ok x.
Proof.
  intros fits dur ops r Dp.
  assert (Tagged : forall d o d' ev u, s_step fits dur d o = Some (Ok (d', ev)) -> find_tag u (s_tags d') <> None ->
    find_tag u (s_tags d) <> None \/ exists t p, o = SSend t u p).
  { assert (TS : forall x y e, s_transmit_start dur x = Ok (y, e) -> s_tags y = s_tags x).
    { intros x y e H. unfold s_transmit_start in H. destruct (s_busy x); cbn in H; try discriminate.
      destruct (s_queue x); try discriminate. destruct (find_tag z (s_tags x)); try discriminate.
      injection H as <- <-. reflexivity. }
    intros d o d' ev u St T. destruct o as [t v proto|]; cbn [s_step] in St.
    - destruct (_ && _) in St; [|discriminate]. apply some_inj in St. unfold s_send in St.
      destruct (find_tag v (s_tags d)) eqn:F; [discriminate|].
      assert (G : s_tags d' = (v, u16 proto) :: s_tags d).
      { destruct (fits (s_queue d) v); [destruct (s_busy d)|]; try (injection St as <- <-; reflexivity).
        destruct (s_transmit_start dur _) as [[d2 e2]| | |] eqn:H in St; cbn in St; try discriminate.
        injection St as <- <-. rewrite (TS _ _ _ H). reflexivity. }
      rewrite G, find_tag_cons in T. destruct (v =? u) eqn:E; [|left; exact T].
      apply Z.eqb_eq in E. subst. right. eauto.
    - left. destruct (s_pending d) as [|c l]; [discriminate|]. apply some_inj in St. unfold s_complete in St.
      assert (G : s_tags d' = remove_tag (c_uid c) (s_tags d)).
      { destruct (s_queue d); [injection St as <- <-; reflexivity|]. apply TS in St. exact St. }
      rewrite G in T. intros N. apply T. destruct (Z.eq_dec u (c_uid c)) as [->|Ne].
      + apply find_remove_same.
      + rewrite find_remove_other by exact Ne. exact N. }
  assert (Gen : forall ops d tr r, d_inv dur d tr -> s_run (s_step fits dur) d ops = Some r ->
    NoDup (map fst (s_sends ops)) -> (forall u, In u (map fst (s_sends ops)) -> find_tag u (s_tags d) = None) -> exists x, r = Ok x).
  { clear ops r. induction ops as [|o l IH]; intros d tr r I R Nd Fr; cbn [s_run] in R; [injection R as <-; eauto|].
    pose proof (d_step dur Dp fits d tr o I) as S.
    destruct (s_step fits dur d o) as [[[d1 e1]| | |]|] eqn:E; try discriminate; try contradiction.
    - destruct (s_run (s_step fits dur) d1 l) as [r1|] eqn:F; [|discriminate].
      destruct (IH d1 (tr ++ e1) r1 S F) as [[d2 e2] ->].
      + destruct o; cbn in Nd; auto. inversion Nd; assumption.
      + intros u Hu. destruct (find_tag u (s_tags d1)) eqn:T; [exfalso|reflexivity].
        destruct (Tagged _ _ _ _ u E) as [H|(t & p & H)]; [congruence| |].
        * apply H, Fr. destruct o; cbn; auto.
        * subst o. cbn in Nd. inversion Nd. contradiction.
      + injection R as <-. eauto.
    - injection R as <-. destruct S as (t & u & p & -> & T). exfalso. apply T, Fr. left; reflexivity. }
  intros R Nd. apply (Gen ops s_init [] r (d_init dur) R Nd). reflexivity.
Qed.
Print Assumptions downlink_runs.

(** Each accepted packet waits at most for the packets accepted before it. *)
Theorem downlink_wait : forall fits dur ops d tr i s u, (forall u, 0 <= dur u) ->
  s_run (s_step fits dur) s_init ops = Some (Ok (d, tr)) ->
  nth_error (in_turn dur 0 (requests tr)) i = Some (s, u) ->
  exists t, nth_error (requests tr) i = Some (t, u) /\
    t <= s <= t + busy_time dur (map snd (firstn i (requests tr))) /\
    forall j s' u', (i < j)%nat -> nth_error (in_turn dur 0 (requests tr)) j = Some (s', u') -> s + dur u <= s'.
Proof.
  intros fits dur ops d tr i s u Dp R N.
  destruct (d_run_ok dur Dp fits ops s_init [] _ (d_init dur) R) as (_ & _ & C).
  destruct (C d tr eq_refl) as [[Nw _ _ Ps Od] _ _ _]. cbn [app] in *.
  assert (L : nth_error (requests tr) i <> None).
  { apply nth_error_Some. assert (X : (i < List.length (in_turn dur 0 (requests tr)))%nat) by (apply nth_error_Some; congruence).
    rewrite <- (map_length snd), in_turn_uids, map_length in X. exact X. }
  destruct (nth_error (requests tr) i) as [[t u']|] eqn:Q; [|congruence].
  destruct (in_turn_wait dur Dp _ _ _ _ _ _ N Q (Od i _ Q)) as [E W]. cbn in E, W. subst u'.
  exists t. split; [reflexivity|].
  assert (P : forall e, In e (requests tr) -> 0 <= fst e).
  { assert (SI : forall d tr o d' ev, (0 <= s_now d /\ forall e, In e (requests tr) -> 0 <= fst e) ->
      s_step fits dur d o = Some (Ok (d', ev)) -> d_inv dur d tr -> (forall e, In e (requests (tr ++ ev)) -> 0 <= fst e)).
    { intros d0 tr0 o d' ev [N0 F0] St I e He. rewrite requests_app in He. apply in_app_or in He. destruct He as [He|He]; [auto|].
      destruct o as [t0 v proto|]; cbn [s_step] in St.
      - destruct (s_now d0 <=? t0) eqn:T; cbn in St; [|discriminate]. destruct (forallb _ _) in St; [|discriminate].
        apply some_inj in St. unfold s_send in St. destruct (find_tag v (s_tags d0)); [discriminate|].
        destruct (fits (s_queue d0) v); [destruct (s_busy d0)|].
        + injection St as _ <-. cbn in He. destruct He as [<-|[]]. cbn. lia.
        + unfold s_transmit_start in St. cbn in St. destruct (s_queue d0 ++ [v]); [discriminate|].
          destruct (find_tag z _); [|discriminate]. injection St as _ <-. cbn in He. destruct He as [<-|[]]. cbn. lia.
        + injection St as _ <-. contradiction.
      - destruct (s_pending d0); [discriminate|]. apply some_inj in St. unfold s_complete in St. destruct (s_queue d0).
        + injection St as _ <-. contradiction.
        + unfold s_transmit_start in St. cbn in St. destruct (s_busy d0); [|discriminate]. cbn in St.
          destruct (find_tag z _); [|discriminate]. injection St as _ <-. contradiction. }
    set (I := fun d tr => d_inv dur d tr /\ forall e, In e (requests tr) -> 0 <= fst e).
    assert (J : I d ([] ++ tr)).
    { apply (s_run_inv (s_step fits dur) I) with (ops := ops) (d := s_init); [|split; [apply d_init|cbn; tauto]|exact R].
      intros d0 tr0 o d' ev [A B] St. split.
      - pose proof (d_step dur Dp fits d0 tr0 o A) as X. rewrite St in X. exact X.
      - eapply SI; [split; [apply (ti_now _ _ _ (di_t _ _ _ A))|exact B]|exact St|exact A]. }
    exact (proj2 J). }
  pose proof (P _ (nth_error_In _ _ Q)) as Pt. cbn in Pt.
  split; [lia|]. intros j s' u' Lt J. apply (in_turn_disjoint dur Dp _ _ _ _ _ _ Lt N J).
Qed.
Print Assumptions downlink_wait.

Definition ten (_ : Z) : Z := 10.
Definition always (_ : list Z) (_ : Z) : bool := true.
Example downlink_case :
  match s_run (s_step always ten) s_init
    [SSend 5 1 7; SSend 8 2 8; SComplete; SSend 15 3 9; SComplete; SComplete; SSend 40 4 7] with
  | Some (Ok (d, tr)) => airings tr = [mkAir 1 5 7; mkAir 2 15 8; mkAir 3 25 9; mkAir 4 40 7] /\ s_busy d = true
  | _ => False
  end.
Proof. vm_compute. split; reflexivity. Qed.

(** The inter-satellite device never fails at all. *)
Theorem isl_fifo : forall fits dur ops r, (forall u, 0 <= dur u) ->
  s_run (i_step fits dur) s_init ops = Some r -> exists d tr, r = Ok (d, tr) /\ serves dur d tr.
Proof.
  intros fits dur ops r Dp R. destruct (i_run_ok dur Dp fits ops s_init [] r (t_inv_init dur) R) as (d & tr & -> & T).
  exists d, tr. split; [reflexivity|]. apply serves_of_inv; assumption.
Qed.
Print Assumptions isl_fifo.

(** * C42: protocol numbers between satellites *)
Definition isl_keeps_protocol : Prop := forall fits dur ops d tr, (forall u, 0 <= dur u) ->
  s_run (i_step fits dur) s_init ops = Some (Ok (d, tr)) -> NoDup (map fst (s_sends ops)) ->
  forall a, In a (airings tr) -> exists p, In (a_uid a, p) (s_sends ops) /\ a_proto a = u16 p.

(** A packet that waits goes out with the number of the one before. *)
Theorem isl_protocol_refuted : ~ isl_keeps_protocol.
Proof.
  intros H. specialize (H always ten [SSend 5 1 7; SSend 8 2 8; SComplete]).
  destruct (s_run (i_step always ten) s_init [SSend 5 1 7; SSend 8 2 8; SComplete]) as [[[d tr]| | |]|] eqn:R;
    try (vm_compute in R; discriminate).
  specialize (H d tr). vm_compute in R. injection R as _ <-.
  destruct (H ltac:(intros; unfold ten; lia) eq_refl) with (a := mkAir 2 15 7) as (p & I & E).
  - cbn. repeat constructor; cbn; intuition discriminate.
  - cbn. tauto.
  - cbn in I. destruct I as [I|[I|[]]]; [discriminate|]. injection I as <-. vm_compute in E. discriminate.
Qed.
Print Assumptions isl_protocol_refuted.

(** It is right if all packets use the same number, as with one network layer. *)
Theorem isl_protocol_partial : forall fits dur ops d tr p, (forall u, 0 <= dur u) ->
  s_run (i_step fits dur) s_init ops = Some (Ok (d, tr)) ->
  Forall (fun e => snd e = p) (s_sends ops) ->
  Forall (fun a => a_proto a = u16 p) (airings tr).
Proof.
  intros fits dur ops d tr p Dp R Sm.
  assert (Gen : forall ops d tr d' ev, Forall (fun e => snd e = p) (s_sends ops) ->
    Forall (fun c => c_proto c = u16 p) (s_pending d) -> Forall (fun a => a_proto a = u16 p) (airings tr) ->
    t_inv dur d tr -> s_run (i_step fits dur) d ops = Some (Ok (d', ev)) -> Forall (fun a => a_proto a = u16 p) (airings (tr ++ ev))).
  { clear - Dp. induction ops as [|o l IH]; intros d tr d' ev Sm Pe Ai Ti R; cbn [s_run] in R.
    - injection R as <- <-. rewrite app_nil_r. exact Ai.
    - destruct (i_step fits dur d o) as [[[d1 e1]| | |]|] eqn:E; try discriminate.
      destruct (s_run (i_step fits dur) d1 l) as [[[d2 e2]| | |]|] eqn:F; try discriminate.
      injection R as <- <-. rewrite app_assoc.
      pose proof (i_step_inv dur fits d tr o Ti) as S. rewrite E in S.
      assert (T1 : t_inv dur d1 (tr ++ e1)) by (eapply serial_inv; eauto).
      assert (K : Forall (fun c => c_proto c = u16 p) (s_pending d1) /\ Forall (fun a => a_proto a = u16 p) (airings e1)).
      { destruct o as [t u q|]; cbn [i_step] in E.
        - destruct (_ && _) in E; [|discriminate]. apply some_inj in E. unfold i_send in E.
          cbn in Sm. pose proof (Forall_inv Sm) as Sq. cbn in Sq. subst q.
          destruct (fits (s_queue d) u); [destruct (s_busy d) eqn:B|]; try (injection E as <- <-; split; [exact Pe|constructor]).
          destruct (t_shape dur d tr Ti) as [(_ & P & Q)|[B' _]]; [|congruence].
          rewrite P, Q in E. cbn in E. injection E as <- <-. cbn. split; repeat constructor.
        - destruct (t_shape dur d tr Ti) as [(_ & P & Q)|[B' [c P]]]; rewrite P in E, Pe; [discriminate|].
          apply some_inj in E. pose proof (Forall_inv Pe) as Pc. unfold i_complete in E. destruct (s_queue d).
          + injection E as <- <-. split; constructor.
          + cbn in E. injection E as <- <-. cbn. split; repeat constructor; exact Pc. }
      destruct K as [K1 K2]. eapply IH; [| |rewrite airings_app; apply Forall_app; split; [exact Ai|exact K2]|exact T1|exact F].
      + destruct o; cbn in Sm; [inversion Sm; assumption|exact Sm].
      + exact K1. }
  apply (Gen ops s_init [] d tr Sm); [constructor|constructor|apply t_inv_init|exact R].
Qed.
Print Assumptions isl_protocol_partial.

Example isl_case :
  match s_run (i_step always ten) s_init
    [SSend 5 1 7; SSend 8 2 8; SSend 9 3 9; SComplete; SComplete; SComplete; SSend 40 4 6] with
  | Some (Ok (d, tr)) => airings tr = [mkAir 1 5 7; mkAir 2 15 7; mkAir 3 25 7; mkAir 4 40 6]
  | _ => False
  end.
Proof. vm_compute. reflexivity. Qed.

(** * C43: reception at a ground station *)

(** What was passed up, and what is still being received, is exactly the frames whose sender was tracked when their
    first bit came; each is passed up when it ends. *)
Theorem hears_tracked_only : forall h a ops s, wf_sat h a -> Forall (eop_wf h) ops ->
  e_run h (e_init a) ops = Some s ->
  Permutation (map snd (e_up s) ++ e_pending s) (heard a ops) /\
  Forall (fun e => fst e = h_end (snd e)) (e_up s) /\
  Forall (fun x => e_now s <= h_end x) (e_pending s) /\
  Forall (fun e => fst e <= e_now s) (e_up s).
Proof.
  intros h a ops s W F R.
  assert (I : e_inv h (e_init a)).
  { constructor; cbn; auto; try constructor. intros [|?] ? ? ? ? H; discriminate. }
  destruct (e_run_facts h ops _ _ I F R) as ([_ _ Ah Ti] & P & _ & _). cbn in P. split; [exact P|].
  split; [|split; [exact Ah|]]; (eapply Forall_impl; [|exact Ti]; cbn; tauto).
Qed.
Print Assumptions hears_tracked_only.

(** Frames of 2 arrive before and after the station turns to 3; the first is still received. *)
Example hears_case :
  let s2 := sat_make le 0 1 2 in let s3 := sat_make le 0 1 3 in
  match e_run le (e_init s2)
    [RArrive 10 s2 1 7 5; RArrive 11 s3 2 7 5; RRetarget 12 s3; RArrive 13 s2 3 7 5; RArrive 14 s3 4 8 5; RFinish; RFinish] with
  | Some s => e_up s = [(15, mkHear s2 1 7 15); (19, mkHear s3 4 8 19)] /\ e_signals s = [(s2, s3)]
  | None => False
  end.
Proof. vm_compute. split; reflexivity. Qed.

(** * C44: signals *)
Theorem retarget_signals : forall h a ops s, wf_sat h a -> Forall (eop_wf h) ops ->
  e_run h (e_init a) ops = Some s ->
  e_signals s = changes a (targets ops) /\ chain a (e_signals s) /\
  e_remote s = last (targets ops) a /\ last (map snd (e_signals s)) a = e_remote s.
Proof.
  intros h a ops s W F R.
  assert (I : e_inv h (e_init a)).
  { constructor; cbn; auto; try constructor. intros [|?] ? ? ? ? H; discriminate. }
  destruct (e_run_facts h ops _ _ I F R) as (_ & _ & E & L). cbn in E, L. rewrite E, L.
  repeat split; [apply changes_chain|apply changes_last].
Qed.
Print Assumptions retarget_signals.

Example signals_case :
  let s2 := sat_make le 0 1 2 in let s3 := sat_make le 0 1 3 in
  match e_run le (e_init s2) [RRetarget 1 s2; RRetarget 2 s3; RRetarget 3 s3; RRetarget 3 s2] with
  | Some s => e_signals s = [(s2, s3); (s3, s2)]
  | None => False
  end.
Proof. vm_compute. reflexivity. Qed.

(** * C45: the URI of the face *)
Definition face_uri_tracks : Prop := forall h a before after,
  wf_sat h a -> Forall (wf_sat h) (before ++ after) ->
  let s := f_run h (mkFace a None) (map FRetarget before ++ FCreate :: map FRetarget after) in
  f_uri s = Some (sat_uri h (f_remote s)).

Lemma uri_inj : forall h a b, wf_sat h a -> wf_sat h b -> sat_uri h a = sat_uri h b -> a = b.
Proof.
  intros h a b (c & p & i & C & P & I & ->) (c' & p' & i' & C' & P' & I' & ->) E. unfold sat_uri in E.
  apply app_inv_head in E. apply app_inv_tail in E.
  apply address_text_injective in E; auto. injection E as -> -> ->. reflexivity.
Qed.

Lemma last_wf : forall h l a, wf_sat h a -> Forall (wf_sat h) l -> wf_sat h (last l a).
Proof.
  intros h. induction l as [|b l IH]; intros a W F; [exact W|]. inversion F; subst. rewrite last_cons. apply IH; assumption.
Qed.

(** The URI is right exactly when the tracked satellite has changed since the face was made, or is 0:0:0. *)
Theorem face_uri_partial : forall h a before after,
  wf_sat h a -> Forall (wf_sat h) (before ++ after) ->
  let s := f_run h (mkFace a None) (map FRetarget before ++ FCreate :: map FRetarget after) in
  f_remote s = last after (last before a) /\
  (f_uri s = Some (sat_uri h (f_remote s)) <->
   changes (last before a) after <> [] \/ f_remote s = sat_make h 0 0 0).
Proof.
  intros h a before after W F. apply Forall_app in F. destruct F as [Fb Fa]. cbv zeta.
  rewrite f_run_app. destruct (f_run_retargets h before (mkFace a None) W Fb) as [A B]. cbn in A, B.
  change (FCreate :: map FRetarget after) with ([FCreate] ++ map FRetarget after). rewrite f_run_app.
  set (s1 := f_run h (f_run h (mkFace a None) (map FRetarget before)) [FCreate]).
  assert (R1 : f_remote s1 = last before a) by (subst s1; unfold f_run at 1; cbn; exact A).
  assert (U1 : f_uri s1 = Some initial_uri) by reflexivity.
  pose proof (last_wf h before a W Fb) as Wl.
  destruct (f_run_retargets h after s1) as [A2 B2]; [rewrite R1; exact Wl|exact Fa|].
  rewrite A2, B2, U1, R1. split; [reflexivity|].
  pose proof (changes_last after (last before a)) as CL.
  destruct (changes (last before a) after) as [|e l]; [|split; [left; discriminate|reflexivity]].
  cbn in CL. rewrite <- CL. rewrite <- (zero_uri h). split.
  - intros E. apply some_inj in E. right. symmetry. apply (uri_inj h); auto.
    exists 0, 0, 0. unfold is_u16. repeat split; lia.
  - intros [H|E]; [congruence|rewrite E; reflexivity].
Qed.
Print Assumptions face_uri_partial.

(** A station that already tracks a satellite when its face is made advertises 0:0:0 until the next change. *)
Theorem face_uri_refuted : ~ face_uri_tracks.
Proof.
  intros H. specialize (H le (sat_make le 0 0 0) [sat_make le 0 1 2] []).
  assert (Wz : forall c p i, is_u16 c -> is_u16 p -> is_u16 i -> wf_sat le (sat_make le c p i)) by (intros c p i; exists c, p, i; auto).
  assert (E : f_uri (f_run le (mkFace (sat_make le 0 0 0) None) (map FRetarget [sat_make le 0 1 2] ++ FCreate :: map FRetarget []))
     = Some (sat_uri le (sat_make le 0 1 2))).
  { apply H; [|repeat constructor]; apply Wz; unfold is_u16; lia. }
  vm_compute in E. discriminate.
Qed.
Print Assumptions face_uri_refuted.

Example face_case :
  f_uri (f_run le (mkFace (sat_make le 0 0 0) None) [FCreate; FRetarget (sat_make le 0 1 2); FRetarget (sat_make le 0 10 255)])
    = Some (txt "satdev://[0000:000a:00ff]").
Proof. vm_compute. reflexivity. Qed.
