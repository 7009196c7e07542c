(** Invariants of links. *)
From Coq Require Import ZArith List Lia Bool Arith Permutation Sorting.Sorted.
From Verif Require Import Base SatAddrModel DeviceModel DeviceSpec DeviceProofs ChannelModel LinkModel LinkSpec.
Import ListNotations.
Open Scope Z_scope.

(** * The event queue *)
Definition sooner {E} (a b : Z * E) : Prop := fst a <= fst b.

Lemma put_perm : forall E t (e : E) q, Permutation (put t e q) ((t, e) :: q).
Proof.
  induction q as [|y q IH]; cbn [put]; [reflexivity|]. destruct (fst y <=? t); [|reflexivity].
  rewrite IH. apply perm_swap.
Qed.

Lemma put_all_perm : forall E (l : list (Z * E)) q, Permutation (put_all l q) (l ++ q).
Proof.
  unfold put_all. induction l as [|[t e] l IH]; intros q; cbn [fold_left app fst snd]; [reflexivity|].
  rewrite IH, put_perm. symmetry. apply Permutation_middle.
Qed.

Lemma put_sorted : forall E t (e : E) q, StronglySorted sooner q -> StronglySorted sooner (put t e q).
Proof.
  induction q as [|y q IH]; intros So; cbn [put]; [repeat constructor|].
  inversion So; subst. destruct (Z.leb_spec (fst y) t).
  - constructor; auto. apply Forall_forall. intros x Hx. apply (Permutation_in _ (put_perm _ _ _ _)) in Hx.
    destruct Hx as [<-|Hx]; [exact H|]. rewrite Forall_forall in H2. apply H2; exact Hx.
  - constructor; auto. constructor; [unfold sooner; cbn; lia|]. apply Forall_forall. intros x Hx.
    rewrite Forall_forall in H2. specialize (H2 x Hx). unfold sooner in *. cbn. lia.
Qed.

Lemma put_all_sorted : forall E (l : list (Z * E)) q, StronglySorted sooner q -> StronglySorted sooner (put_all l q).
Proof. unfold put_all. induction l as [|x l IH]; intros q So; cbn [fold_left]; auto. apply IH, put_sorted, So. Qed.

(** Ends of transmissions that device [i] still waits for. *)
Definition ends (i : nat) (q : list (Z * levent)) : list Z :=
  flat_map (fun e => match snd e with LDone j => if (j =? i)%nat then [fst e] else [] | _ => [] end) q.

Definition on_its_time (x : Z * levent) : Prop :=
  match snd x with LDone _ => True | LArrive f => fst x = fl_arr f | LFinish f => fst x = fl_end f end.

Lemma at_same : forall A (f : nat -> A) i x, at_index f i x i = x.
Proof. intros. unfold at_index. rewrite Nat.eqb_refl. reflexivity. Qed.
Lemma at_other : forall A (f : nat -> A) i x j, j <> i -> at_index f i x j = f j.
Proof. intros. unfold at_index. rewrite (proj2 (Nat.eqb_neq _ _)) by exact H. reflexivity. Qed.

Lemma sorted_snoc : forall A (key : A -> Z) l x, StronglySorted Z.le (map key l) -> Forall (fun y => key y <= key x) l ->
  StronglySorted Z.le (map key (l ++ [x])).
Proof.
  intros A key l x So Fo. rewrite map_app. cbn [map]. revert So Fo. induction l as [|y l IH]; intros So Fo; cbn [map app]; [repeat constructor|].
  inversion So; subst. inversion Fo; subst. constructor; [auto|]. apply Forall_app. split; [assumption|].
  constructor; [assumption|constructor].
Qed.

Lemma s_run_snoc : forall step ops o d d1 tr1 d2 ev, s_run step d ops = Some (Ok (d1, tr1)) -> step d1 o = Some (Ok (d2, ev)) ->
  s_run step d (ops ++ [o]) = Some (Ok (d2, tr1 ++ ev)).
Proof.
  induction ops as [|p ops IH]; intros o d d1 tr1 d2 ev R S; cbn [s_run app] in *.
  - injection R as <- <-. rewrite S. cbn. rewrite app_nil_r. reflexivity.
  - destruct (step d p) as [[[d3 e3]| | |]|]; try discriminate.
    destruct (s_run step d3 ops) as [[[d4 e4]| | |]|] eqn:E; try discriminate. injection R as <- <-.
    rewrite (IH _ _ _ _ _ _ E S). rewrite app_assoc. reflexivity.
Qed.

(** [serial], with the call that led to it. *)
Inductive moves (dur : Z -> Z) (d : sdev) : sop -> list sevent -> sdev -> Prop :=
| mv_refuse t u p tags : on_time d t = true ->
    moves dur d (SSend t u p) [SRefuse u] (mkS t (s_busy d) (s_queue d) tags (s_pending d))
| mv_wait t u p tags : on_time d t = true -> s_busy d = true ->
    moves dur d (SSend t u p) [SAccept t u p] (mkS t true (s_queue d ++ [u]) tags (s_pending d))
| mv_go t u p p' tags : on_time d t = true -> s_busy d = false ->
    moves dur d (SSend t u p) [SAccept t u p; SAir (mkAir u t p')] (mkS t true [] tags [mkDone (t + dur u) u p'])
| mv_rest c tags : s_pending d = [c] -> s_queue d = [] -> moves dur d SComplete [] (mkS (c_end c) false [] tags [])
| mv_next c u q p' tags : s_pending d = [c] -> s_queue d = u :: q ->
    moves dur d SComplete [SAir (mkAir u (c_end c) p')] (mkS (c_end c) true q tags [mkDone (c_end c + dur u) u p']).

Lemma moves_serial : forall dur d o ev d', moves dur d o ev d' -> serial dur d ev d'.
Proof. intros dur d o ev d' M. destruct M; econstructor; eauto. Qed.

Section Link.
Variable step : nat -> sdev -> sop -> option (result (sdev * list sevent)).
Variable dur : nat -> Z -> Z.
Variable spread : Z -> nat -> Z -> Z -> result (list hop).
Context {F : Type}.
Variable hears : F -> nat -> bool.
Variable x0 : nat -> F.
Variable inv : nat -> sdev -> list sevent -> Prop.

Hypothesis dur_pos : forall i u, 0 <= dur i u.
Hypothesis hop_pos : forall t i u p hops after r lasts, spread t i u p = Ok hops -> In (Reach after r lasts) hops ->
  0 <= after /\ 0 <= lasts.
Hypothesis inv_init : forall i, inv i s_init [].
Hypothesis inv_serial : forall i d tr, inv i d tr -> t_inv (dur i) d tr.
Hypothesis inv_step : forall i d tr o d' ev, inv i d tr -> step i d o = Some (Ok (d', ev)) ->
  inv i d' (tr ++ ev) /\ moves (dur i) d o ev d'.

Local Notation knote := (knote F).
Local Notation lstate := (@lstate F).
Local Notation fly := (@fly dur spread F).
Local Notation device_call := (@device_call step dur spread F).
Local Notation l_step := (@l_step step dur spread F hears).
Local Notation l_run := (@l_run step dur spread F hears).

Definition fates (s : sending) : list hop := hops_of spread s.
Definition all_carried (l : list sending) : list flight := flat_map (fun s => carried s (fates s)) l.
Definition all_missed (l : list sending) : list (Z * nat * Z) := flat_map (fun s => missed s (fates s)) l.
Definition sends_of (t : Z) (i : nat) (ev : list sevent) : list sending :=
  map (fun a => mkSending t i (a_uid a) (a_proto a)) (airings ev).

(** ** Reading notes *)
Lemma dev_ops_app : forall i (a b : list knote), dev_ops i (a ++ b) = dev_ops i a ++ dev_ops i b.
Proof. intros. apply flat_map_app. Qed.
Lemma dev_events_app : forall i (a b : list knote), dev_events i (a ++ b) = dev_events i a ++ dev_events i b.
Proof. intros. apply flat_map_app. Qed.
Lemma sendings_app : forall (a b : list knote), sendings (a ++ b) = sendings a ++ sendings b.
Proof. intros. apply flat_map_app. Qed.
Lemma arrived_app : forall (a b : list knote), arrived (a ++ b) = arrived a ++ arrived b.
Proof. intros. apply flat_map_app. Qed.
Lemma taken_app : forall (a b : list knote), taken (a ++ b) = taken a ++ taken b.
Proof. intros. apply flat_map_app. Qed.
Lemma passed_app : forall (a b : list knote), passed (a ++ b) = passed a ++ passed b.
Proof. intros. apply flat_map_app. Qed.
Lemma dropped_app : forall (a b : list knote), dropped (a ++ b) = dropped a ++ dropped b.
Proof. intros. apply flat_map_app. Qed.
Lemma obeyed_app : forall (a b : list knote), obeyed (a ++ b) = obeyed a ++ obeyed b.
Proof. intros. apply flat_map_app. Qed.
Lemma focus_app : forall (a b : list knote) x r, focus x r (a ++ b) = focus (focus x r a) r b.
Proof. induction a as [|n a IH]; intros b x r; [reflexivity|]. destruct n; cbn [app focus]; auto. Qed.

(** ** The channel *)
Lemma flying_app : forall a b, flying (a ++ b) = flying a ++ flying b.
Proof. intros. apply flat_map_app. Qed.
Lemma arriving_app : forall a b, arriving (a ++ b) = arriving a ++ arriving b.
Proof. intros. apply flat_map_app. Qed.
Lemma ends_app : forall i a b, ends i (a ++ b) = ends i a ++ ends i b.
Proof. intros. apply flat_map_app. Qed.

Lemma reach_facts : forall t i u p hops,
  flying (reach_events t i u p hops) = carried (mkSending t i u p) hops /\
  arriving (reach_events t i u p hops) = [] /\ (forall j, ends j (reach_events t i u p hops) = []).
Proof.
  induction hops as [|[|after r lasts] hops (A & B & C)]; cbn; auto.
  split; [f_equal; exact A|auto].
Qed.

Lemma lost_facts : forall t i u p hops, dropped (lost_notes (F := F) t i u hops) = missed (mkSending t i u p) hops.
Proof. induction hops as [|[|after r lasts] hops IH]; cbn; auto. f_equal. exact IH. Qed.

Lemma lost_drops : forall t i u hops (n : knote), In n (lost_notes t i u hops) -> n = KDrop t i u.
Proof. intros t i u hops n H. apply in_flat_map in H. destruct H as ([|] & _ & H); cbn in H; intuition. Qed.

Lemma reach_in : forall t i u p hops x, In x (reach_events t i u p hops) ->
  exists after r lasts, In (Reach after r lasts) hops /\ x = (t + after, LArrive (mkFlight i r u p (t + after) lasts)).
Proof.
  intros t i u p hops x H. apply in_flat_map in H. destruct H as ([|after r lasts] & I & H); cbn in H; [contradiction|].
  destruct H as [<-|[]]. eauto.
Qed.

Lemma fly_facts : forall ev t i q q' ns, fly t i ev q = Ok (q', ns) ->
  Permutation (flying q') (all_carried (sends_of t i ev) ++ flying q) /\
  Permutation (arriving q') (arriving q) /\
  (forall j, Permutation (ends j q') ((if (i =? j)%nat then map (fun a => t + dur i (a_uid a)) (airings ev) else []) ++ ends j q)) /\
  dropped ns = all_missed (sends_of t i ev) /\
  (forall n, In n ns -> exists u, n = KDrop t i u) /\
  (StronglySorted sooner q -> StronglySorted sooner q') /\
  (forall x, In x q' -> In x q \/ (t <= fst x /\ on_its_time x)).
Proof.
  induction ev as [|e ev IH]; intros t i q q' ns H; cbn [LinkModel.fly] in H.
  - injection H as <- <-. cbn. repeat split; auto; try reflexivity; try contradiction.
    intros j. destruct (i =? j)%nat; reflexivity.
  - destruct e as [t1 u p|u|a]; cbn [airings flat_map app sends_of map].
    1, 2: exact (IH _ _ _ _ _ H).
    destruct (spread t i (a_uid a) (a_proto a)) as [hops| | |] eqn:Sp; cbn [rbind] in H; try discriminate.
    destruct (LinkModel.fly dur spread t i ev _) as [[q1 n1]| | |] eqn:E in H; cbn [rbind] in H; try discriminate.
    injection H as <- <-. destruct (IH _ _ _ _ _ E) as (A & B & C & D & N & S & X). clear IH.
    set (s := mkSending t i (a_uid a) (a_proto a)).
    assert (Fs : fates s = hops) by (unfold fates, hops_of, s; cbn; rewrite Sp; reflexivity).
    set (re := reach_events t i (a_uid a) (a_proto a) hops) in *.
    assert (P : Permutation (put (t + dur i (a_uid a)) (LDone i) (put_all re q)) ((t + dur i (a_uid a), LDone i) :: re ++ q)).
    { rewrite put_perm, put_all_perm. reflexivity. }
    destruct (reach_facts t i (a_uid a) (a_proto a) hops) as (R1 & R2 & R3). fold s re in R1, R2, R3.
    repeat split.
    + rewrite A. unfold flying at 1. rewrite (Permutation_flat_map _ P). cbn [flat_map snd app]. fold (flying (re ++ q)).
      rewrite flying_app, R1. unfold all_carried at 2. cbn [flat_map map]. fold s. rewrite Fs.
      fold (airings ev) (sends_of t i ev) (all_carried (sends_of t i ev)).
      rewrite <- app_assoc. apply Permutation_app_swap_app.
    + rewrite B. unfold arriving at 1. rewrite (Permutation_flat_map _ P). cbn [flat_map snd app]. fold (arriving (re ++ q)).
      rewrite arriving_app, R2. reflexivity.
    + intros j. rewrite C. unfold ends at 1. rewrite (Permutation_flat_map _ P). cbn [flat_map snd app]. fold (ends j (re ++ q)).
      rewrite ends_app, R3. cbn [app]. destruct (i =? j)%nat; cbn [map app fst]; [|reflexivity].
      symmetry. apply Permutation_middle.
    + rewrite dropped_app, D. unfold all_missed at 2. cbn [flat_map map]. fold s. rewrite Fs.
      rewrite (lost_facts t i (a_uid a) (a_proto a)). fold s. reflexivity.
    + intros n Hn. apply in_app_or in Hn. destruct Hn as [Hn|Hn]; [|auto]. apply lost_drops in Hn. eauto.
    + intros So. apply S, put_sorted, put_all_sorted, So.
    + intros x Hx. destruct (X x Hx) as [Hq|?]; [|auto]. apply (Permutation_in _ P) in Hq.
      destruct Hq as [<-|Hq].
      * right. cbn. split; [pose proof (dur_pos i (a_uid a)); lia|exact Logic.I].
      * apply in_app_or in Hq. destruct Hq as [Hq|Hq]; [right|auto].
        apply reach_in in Hq. destruct Hq as (after & r & lasts & I & ->).
        destruct (hop_pos _ _ _ _ _ _ _ _ Sp I). cbn. split; [lia|reflexivity].
Qed.

(** ** The invariant *)
Record l_inv (ns : list knote) (y : lstate) : Prop := mkLInv {
  li_dev : forall i, s_run (step i) s_init (dev_ops i ns) = Some (Ok (l_dev y i, dev_events i ns));
  li_inv : forall i, inv i (l_dev y i) (dev_events i ns);
  li_now : forall i, s_now (l_dev y i) <= l_now y;
  li_ends : forall i, Permutation (ends i (l_queue y)) (map c_end (s_pending (l_dev y i)));
  li_sorted : StronglySorted sooner (l_queue y);
  li_future : Forall (fun x => l_now y <= fst x) (l_queue y);
  li_start : 0 <= l_now y;
  li_events : Forall on_its_time (l_queue y);
  li_lasts : forall f, In f (flying (l_queue y)) -> 0 <= fl_lasts f;
  li_fly : Permutation (arrived ns ++ flying (l_queue y)) (all_carried (sendings ns));
  li_arr : Permutation (passed ns ++ arriving (l_queue y)) (taken ns);
  li_drop : dropped ns = all_missed (sendings ns);
  li_focus : forall r, l_focus y r = focus (x0 r) r ns;
  li_heard : forall n1 t f ok n2, ns = n1 ++ KArrive t f ok :: n2 ->
     t = fl_arr f /\ ok = hears (focus (x0 (fl_to f)) (fl_to f) n1) (fl_src f);
  li_ups : forall t f, In (KUp t f) ns -> t = fl_end f;
  li_air : forall t i o ev, In (KDev t i o ev) ns ->
     (forall t' u p, o = SSend t' u p -> t' = t) /\
     (forall a, In (SAir a) ev -> a_start a = t) /\ (forall t' u p, In (SAccept t' u p) ev -> t' = t);
  li_times : StronglySorted Z.le (map k_time ns);
  li_past : Forall (fun n => k_time n <= l_now y) ns }.

Lemma carried_lasts : forall l f, In f (all_carried l) -> 0 <= fl_lasts f /\ exists s, In s l /\ sd_time s <= fl_arr f.
Proof.
  intros l f H. apply in_flat_map in H. destruct H as (s & Hs & H). unfold fates, hops_of in H.
  destruct (spread _ _ _ _) as [hops| | |] eqn:E; cbn in H; try contradiction.
  apply in_flat_map in H. destruct H as ([|after r lasts] & I & H); cbn in H; [contradiction|].
  destruct H as [<-|[]]. destruct (hop_pos _ _ _ _ _ _ _ _ E I). cbn. split; [assumption|]. exists s. split; [exact Hs|lia].
Qed.

Lemma l_start : l_inv [] (l_init x0).
Proof.
  constructor; cbn; try (constructor; fail); try reflexivity; try (apply inv_init); try tauto; try lia.
  intros [|] ? ? ? ? H; discriminate.
Qed.

(** Time moves on. *)
Lemma inv_wait : forall ns y t, l_inv ns y -> ready y t = true -> l_inv ns (mkL t (l_queue y) (l_dev y) (l_focus y)).
Proof.
  intros ns y t I H. unfold ready in H. apply andb_true_iff in H. destruct H as [H1 H2].
  apply Z.leb_le in H1. rewrite forallb_forall in H2. destruct I. constructor; cbn; auto.
  - intros i. specialize (li_now0 i). lia.
  - apply Forall_forall. intros x Hx. apply Z.leb_le, H2, Hx.
  - lia.
  - eapply Forall_impl; [|exact li_past0]. cbn. intros; lia.
Qed.

(** The device and the queue when a device acts. *)
Lemma move_ends : forall i d tr o d' ev, t_inv (dur i) d tr -> moves (dur i) d o ev d' ->
  Forall (fun a => a_start a = s_now d') (airings ev) /\
  (forall t u p, In (SAccept t u p) ev -> t = s_now d') /\
  (forall l, Permutation l (map c_end (match o with SSend _ _ _ => s_pending d | SComplete => [] end)) ->
     Permutation (map (fun a => s_now d' + dur i (a_uid a)) (airings ev) ++ l) (map c_end (s_pending d'))).
Proof.
  intros i d tr o d' ev T M.
  destruct M as [t1 u p tags O|t1 u p tags O Bz|t1 u p p' tags O Bz|c' tags P Q|c' u q p' tags P Q];
    cbn [s_now s_busy s_pending s_queue airings flat_map app map a_start a_uid In].
  all: split; [repeat constructor|split; [intros t' u' p0 H; repeat (destruct H as [H|H]; try discriminate; try (injection H as <- _ _; reflexivity)); try contradiction|]]; intros l Hl; auto.
  destruct (t_shape _ _ _ T) as [(_ & Pe & _)|(Bu & _)]; [|congruence]. rewrite Pe in Hl. symmetry in Hl. apply Permutation_nil in Hl. subst l. reflexivity.
Qed.

Lemma past_app : forall t (a b : list knote), Forall (fun n => k_time n <= t) a -> (forall n, In n b -> k_time n = t) ->
  StronglySorted Z.le (map k_time a) -> StronglySorted Z.le (map k_time (a ++ b)) /\ Forall (fun n => k_time n <= t) (a ++ b).
Proof.
  intros t a b. revert a. induction b as [|n b IH]; intros a Fa Fb So; [rewrite app_nil_r; auto|].
  replace (a ++ n :: b) with ((a ++ [n]) ++ b) by (rewrite <- app_assoc; reflexivity).
  assert (En : k_time n = t) by (apply Fb; left; reflexivity).
  apply IH; [|intros; apply Fb; right; assumption|].
  - apply Forall_app. split; [exact Fa|]. constructor; [lia|constructor].
  - apply sorted_snoc; [exact So|]. rewrite En. exact Fa.
Qed.

Lemma drops_silent : forall (b : list knote) t i, (forall n, In n b -> exists u, n = KDrop t i u) ->
  (forall j, dev_ops j b = [] /\ dev_events j b = []) /\ sendings b = [] /\ arrived b = [] /\ taken b = [] /\ passed b = [] /\
  obeyed b = [] /\ (forall x r, focus x r b = x) /\ (forall n, In n b -> k_time n = t).
Proof.
  induction b as [|n b IH]; intros t i H.
  - repeat split; auto; try contradiction.
  - destruct (H n (or_introl eq_refl)) as [u ->]. destruct (IH t i) as (A & B & C & D & E & O & Fo & T). { intros; apply H; right; assumption. }
    repeat split; auto; try apply A; try (intros; apply Fo). intros m [<-|Hm]; auto.
Qed.

Lemma split_snoc : forall A (ns : list A) n n1 m n2, ns ++ [n] = n1 ++ m :: n2 ->
  (exists n3, ns = n1 ++ m :: n3 /\ n2 = n3 ++ [n]) \/ (ns = n1 /\ m = n /\ n2 = []).
Proof.
  intros A ns n n1 m n2 E. destruct n2 as [|x n2] using rev_ind.
  - right. apply app_inj_tail in E. destruct E. auto.
  - left. exists n2. rewrite app_comm_cons, app_assoc in E. apply app_inj_tail in E. destruct E as [-> ->]. auto.
Qed.

Lemma split_app : forall A (a b : list A) n1 m n2, a ++ b = n1 ++ m :: n2 ->
  (exists n3, a = n1 ++ m :: n3) \/ (exists b1 b2, b = b1 ++ m :: b2 /\ n1 = a ++ b1).
Proof.
  intros A a b. revert a. induction b as [|x b IH] using rev_ind; intros a n1 m n2 E.
  - rewrite app_nil_r in E. left. eauto.
  - rewrite app_assoc in E. apply split_snoc in E. destruct E as [(n3 & E & ->)|(E & -> & ->)].
    + destruct (IH _ _ _ _ E) as [?|(b1 & b2 & -> & ->)]; [auto|]. right. exists b1, (b2 ++ [x]). rewrite <- app_assoc. auto.
    + right. exists b, []. auto.
Qed.

(** A call on device [i], from the queue [q] that is left. *)
Lemma inv_device : forall ns y i o d ev q ns' (q0 : list (Z * levent)), l_inv ns y ->
  step i (l_dev y i) o = Some (Ok (d, ev)) -> s_now d = l_now y ->
  (match o with SSend _ _ _ => q0 = l_queue y | SComplete => l_queue y = (l_now y, LDone i) :: q0 end) ->
  fly (l_now y) i ev q0 = Ok (q, ns') ->
  l_inv (ns ++ KDev (l_now y) i o ev :: ns') (mkL (l_now y) q (at_index (l_dev y) i d) (l_focus y)).
Proof.
  intros ns y i o d ev q ns' q0 I St Nw Eq Fl. destruct I.
  destruct (inv_step _ _ _ _ _ _ (li_inv0 i) St) as [Iv Mv].
  destruct (move_ends _ _ _ _ _ _ (inv_serial _ _ _ (li_inv0 i)) Mv) as (M1 & M2 & M3).
  destruct (fly_facts _ _ _ _ _ _ Fl) as (F1 & F2 & F3 & F4 & F5 & F6 & F7).
  destruct (drops_silent ns' _ _ F5) as (D1 & D2 & D3 & D4 & D5 & _ & D6 & D7).
  assert (Q1 : flying (l_queue y) = flying q0 /\ arriving (l_queue y) = arriving q0 /\
    (forall j, j <> i -> ends j (l_queue y) = ends j q0) /\
    Permutation (ends i q0) (map c_end (match o with SSend _ _ _ => s_pending (l_dev y i) | SComplete => [] end)) /\
    (forall x, In x q0 -> In x (l_queue y)) /\ StronglySorted sooner q0).
  { destruct o as [t u p|]; [subst q0; repeat split; auto|]. rewrite Eq in *. repeat split; auto.
    - intros j Nj. unfold ends. cbn [flat_map snd]. rewrite (proj2 (Nat.eqb_neq i j)) by congruence. reflexivity.
    - specialize (li_ends0 i). unfold ends in li_ends0. cbn [flat_map snd fst] in li_ends0. rewrite Nat.eqb_refl in li_ends0. cbn [app] in li_ends0.
      fold (ends i q0) in li_ends0. inversion Mv; subst; rewrite H in li_ends0; cbn [map] in li_ends0;
        apply Permutation_length in li_ends0; cbn in li_ends0; destruct (ends i q0); cbn in *; try lia; reflexivity.
    - intros x Hx. right. exact Hx.
    - inversion li_sorted0. assumption. }
  destruct Q1 as (Q1 & Q2 & Q3 & Q4 & Q5 & Q6).
  set (n := KDev (l_now y) i o ev).
  assert (Os : forall j, dev_ops j (ns ++ n :: ns') = dev_ops j ns ++ (if (i =? j)%nat then [o] else [])).
  { intros j. change (n :: ns') with ([n] ++ ns'). rewrite !dev_ops_app. destruct (D1 j) as [-> _]. rewrite app_nil_r.
    unfold n. cbn [dev_ops flat_map]. destruct (i =? j)%nat; reflexivity. }
  assert (Es : forall j, dev_events j (ns ++ n :: ns') = dev_events j ns ++ (if (i =? j)%nat then ev else [])).
  { intros j. change (n :: ns') with ([n] ++ ns'). rewrite !dev_events_app. destruct (D1 j) as [_ ->]. rewrite app_nil_r.
    unfold n. cbn [dev_events flat_map]. destruct (i =? j)%nat; rewrite ?app_nil_r; reflexivity. }
  assert (Sn : sendings (ns ++ n :: ns') = sendings ns ++ sends_of (l_now y) i ev).
  { change (n :: ns') with ([n] ++ ns'). rewrite !sendings_app, D2, app_nil_r. unfold n. cbn [sendings flat_map]. rewrite app_nil_r. reflexivity. }
  destruct (past_app (l_now y) ns (n :: ns') li_past0) as [Ti Pa]; [intros m [<-|Hm]; [reflexivity|auto]|exact li_times0|].
  constructor; cbn [l_now l_queue l_dev l_focus]; auto.
  - intros j. rewrite Os, Es. destruct (Nat.eqb_spec i j) as [<-|Ne].
    + rewrite at_same. eapply s_run_snoc; eauto.
    + rewrite at_other by congruence. rewrite !app_nil_r. auto.
  - intros j. rewrite Es. destruct (Nat.eqb_spec i j) as [<-|Ne].
    + rewrite at_same. exact Iv.
    + rewrite at_other by congruence. rewrite app_nil_r. auto.
  - intros j. destruct (Nat.eq_dec j i) as [->|Ne]; [rewrite at_same; lia|rewrite at_other by exact Ne; auto].
  - intros j. rewrite F3. destruct (Nat.eqb_spec i j) as [<-|Ne].
    + rewrite at_same. rewrite <- Nw. apply M3. exact Q4.
    + rewrite at_other by congruence. cbn [app]. rewrite <- Q3 by congruence. auto.
  - apply Forall_forall. intros x Hx. destruct (F7 x Hx) as [H|[H _]]; [|exact H]. rewrite Forall_forall in li_future0. auto.
  - apply Forall_forall. intros x Hx. destruct (F7 x Hx) as [H|[_ H]]; [|exact H]. rewrite Forall_forall in li_events0. auto.
  - intros f Hf. apply (Permutation_in _ F1) in Hf. apply in_app_or in Hf. destruct Hf as [Hf|Hf].
    + apply carried_lasts in Hf. tauto.
    + rewrite <- Q1 in Hf. auto.
  - rewrite Sn. unfold all_carried. rewrite flat_map_app. fold (all_carried (sendings ns)) (all_carried (sends_of (l_now y) i ev)).
    change (n :: ns') with ([n] ++ ns'). rewrite !arrived_app, D3. cbn [arrived flat_map]. rewrite !app_nil_r.
    rewrite F1, <- Q1, <- li_fly0. rewrite <- app_assoc. apply Permutation_app_head. apply Permutation_app_comm.
  - change (n :: ns') with ([n] ++ ns'). rewrite !passed_app, !taken_app, D5, D4. cbn [passed taken flat_map]. rewrite !app_nil_r.
    rewrite F2, <- Q2. exact li_arr0.
  - rewrite Sn. change (n :: ns') with ([n] ++ ns'). rewrite !dropped_app, F4, li_drop0. cbn [dropped flat_map app].
    unfold all_missed. rewrite flat_map_app. reflexivity.
  - intros r. rewrite focus_app. unfold n. cbn [focus]. rewrite D6. auto.
  - intros n1 t f ok n2 E. apply split_app in E. destruct E as [(n3 & E)|(b1 & b2 & E & _)]; [eauto|].
    exfalso. destruct b1 as [|m b1]; [discriminate|]. injection E as _ E.
    assert (In (KArrive t f ok) ns') by (rewrite E; apply in_or_app; right; left; reflexivity).
    destruct (F5 _ H) as [u Hu]. discriminate.
  - intros t f H. apply in_app_or in H. destruct H as [H|[H|H]]; [eauto|discriminate|].
    destruct (F5 _ H) as [u Hu]. discriminate.
  - intros t j o' ev' H. apply in_app_or in H. destruct H as [H|[H|H]]; [eauto| |destruct (F5 _ H) as [u Hu]; discriminate].
    injection H as <- <- <- <-. rewrite <- Nw. split; [|split; [|exact M2]].
    + intros t' u p ->. inversion Mv; subst; reflexivity.
    + intros a Ha. rewrite Forall_forall in M1. apply M1. apply in_flat_map. exists (SAir a). split; [exact Ha|left; reflexivity].
Qed.

Lemma inv_receive : forall ns y t f q, l_inv ns y -> l_queue y = (t, LArrive f) :: q ->
  let y1 := mkL t q (l_dev y) (l_focus y) in
  l_inv (ns ++ snd (receive hears y1 t f)) (fst (receive hears y1 t f)).
Proof.
  intros ns y t f q I Eq y1. subst y1. unfold receive. cbn [l_focus fst snd l_now l_queue l_dev].
  destruct I. rewrite Eq in *.
  pose proof (Forall_inv li_future0) as Fu. cbn [fst] in Fu. pose proof (Forall_inv_tail li_future0) as Fut.
  pose proof (Forall_inv li_events0) as Ev. cbn in Ev. pose proof (Forall_inv_tail li_events0) as Evt.
  inversion li_sorted0 as [|? ? So Sh]; subst. clear li_sorted0.
  assert (Lf : 0 <= fl_lasts f) by (apply li_lasts0; left; reflexivity).
  assert (Fq : Forall (fun x => fl_arr f <= fst x) q).
  { eapply Forall_impl; [|exact Sh]. unfold sooner. cbn. auto. }
  set (ok := hears (l_focus y (fl_to f)) (fl_src f)). set (n := KArrive (fl_arr f) f ok).
  assert (Pst : Forall (fun n => k_time n <= fl_arr f) ns). { eapply Forall_impl; [|exact li_past0]. cbn. intros; lia. }
  destruct (past_app (fl_arr f) ns [n] Pst) as [Ti Pa]; [intros m [<-|[]]; reflexivity|exact li_times0|].
  assert (Hd : forall n1 t f0 ok0 n2, ns ++ [n] = n1 ++ KArrive t f0 ok0 :: n2 ->
    t = fl_arr f0 /\ ok0 = hears (focus (x0 (fl_to f0)) (fl_to f0) n1) (fl_src f0)).
  { intros n1 t0 f0 ok0 n2 E. apply split_snoc in E. destruct E as [(n3 & E & _)|(<- & E & _)]; [eauto|].
    injection E as -> -> ->. split; [reflexivity|]. unfold ok. rewrite li_focus0. reflexivity. }
  assert (Dn : forall i, dev_ops i (ns ++ [n]) = dev_ops i ns /\ dev_events i (ns ++ [n]) = dev_events i ns).
  { intros i. rewrite dev_ops_app, dev_events_app. cbn. rewrite !app_nil_r. auto. }
  assert (Sn : sendings (ns ++ [n]) = sendings ns) by (rewrite sendings_app; apply app_nil_r).
  assert (Pn : passed (ns ++ [n]) = passed ns) by (rewrite passed_app; apply app_nil_r).
  assert (Rn : dropped (ns ++ [n]) = dropped ns) by (rewrite dropped_app; apply app_nil_r).
  assert (Ar : Permutation (arrived (ns ++ [n]) ++ flying q) (all_carried (sendings (ns ++ [n])))).
  { rewrite Sn, arrived_app. cbn. rewrite <- app_assoc. cbn [app]. exact li_fly0. }
  assert (Up : forall t f0, In (KUp t f0) (ns ++ [n]) -> t = fl_end f0).
  { intros t0 f0 H. apply in_app_or in H. destruct H as [H|[H|[]]]; [eauto|discriminate]. }
  assert (Ai : forall t i o ev, In (KDev t i o ev) (ns ++ [n]) -> (forall t' u p, o = SSend t' u p -> t' = t) /\
     (forall a, In (SAir a) ev -> a_start a = t) /\ (forall t' u p, In (SAccept t' u p) ev -> t' = t)).
  { intros t0 i o ev H. apply in_app_or in H. destruct H as [H|[H|[]]]; [eauto|discriminate]. }
  assert (Fo : forall r, l_focus y r = focus (x0 r) r (ns ++ [n])).
  { intros r. rewrite focus_app. unfold n. cbn [focus]. auto. }
  destruct ok eqn:Ok.
  - assert (P : Permutation (put (fl_arr f + fl_lasts f) (LFinish f) q) ((fl_arr f + fl_lasts f, LFinish f) :: q)) by apply put_perm.
    constructor; cbn [l_now l_queue l_dev l_focus]; auto; try lia; try (intros i; specialize (li_now0 i); lia).
    + intros i. destruct (Dn i) as [-> ->]. auto.
    + intros i. destruct (Dn i) as [_ ->]. auto.
    + intros i. unfold ends at 1. rewrite (Permutation_flat_map _ P). cbn [flat_map snd app]. exact (li_ends0 i).
    + apply put_sorted. exact So.
    + apply Forall_forall. intros x Hx. apply (Permutation_in _ P) in Hx. destruct Hx as [<-|Hx]; [cbn; lia|]. rewrite Forall_forall in Fq. auto.
    + apply Forall_forall. intros x Hx. apply (Permutation_in _ P) in Hx. destruct Hx as [<-|Hx]; [reflexivity|]. rewrite Forall_forall in Evt. auto.
    + intros g Hg. unfold flying in Hg. apply (Permutation_in _ (Permutation_flat_map _ P)) in Hg. cbn [flat_map snd app] in Hg.
      apply li_lasts0. right. exact Hg.
    + unfold flying at 1. rewrite (Permutation_flat_map _ P). cbn [flat_map snd app]. exact Ar.
    + rewrite Pn, taken_app. unfold arriving at 1. rewrite (Permutation_flat_map _ P). cbn [flat_map snd app taken].
      fold (arriving q). rewrite <- Permutation_middle. unfold n. cbn [taken flat_map app].
      rewrite <- Permutation_cons_append. apply perm_skip. exact li_arr0.
    + rewrite Sn, Rn. exact li_drop0.
  - constructor; cbn [l_now l_queue l_dev l_focus]; auto; try lia; try (intros i; specialize (li_now0 i); lia).
    + intros i. destruct (Dn i) as [-> ->]. auto.
    + intros i. destruct (Dn i) as [_ ->]. auto.
    + intros g Hg. apply li_lasts0. right. exact Hg.
    + rewrite Pn, taken_app. cbn. rewrite app_nil_r. exact li_arr0.
    + rewrite Sn, Rn. exact li_drop0.
Qed.

Lemma inv_up : forall ns y t f q, l_inv ns y -> l_queue y = (t, LFinish f) :: q ->
  l_inv (ns ++ [KUp t f]) (mkL t q (l_dev y) (l_focus y)).
Proof.
  intros ns y t f q I Eq. destruct I. rewrite Eq in *.
  pose proof (Forall_inv li_future0) as Fu. cbn [fst] in Fu. pose proof (Forall_inv_tail li_future0) as Fut.
  pose proof (Forall_inv li_events0) as Ev. cbn in Ev. pose proof (Forall_inv_tail li_events0) as Evt.
  inversion li_sorted0 as [|? ? So Sh]; subst. clear li_sorted0. set (t := fl_end f) in *. set (n := KUp t f : knote).
  assert (Pst : Forall (fun n => k_time n <= t) ns). { eapply Forall_impl; [|exact li_past0]. cbn. intros; lia. }
  destruct (past_app t ns [n] Pst) as [Ti Pa]; [intros m [<-|[]]; reflexivity|exact li_times0|].
  assert (Dn : forall i, dev_ops i (ns ++ [n]) = dev_ops i ns /\ dev_events i (ns ++ [n]) = dev_events i ns).
  { intros i. rewrite dev_ops_app, dev_events_app. cbn. rewrite !app_nil_r. auto. }
  assert (Sn : sendings (ns ++ [n]) = sendings ns) by (rewrite sendings_app; apply app_nil_r).
  assert (Rn : dropped (ns ++ [n]) = dropped ns) by (rewrite dropped_app; apply app_nil_r).
  assert (Tn : taken (ns ++ [n]) = taken ns) by (rewrite taken_app; apply app_nil_r).
  assert (An : arrived (ns ++ [n]) = arrived ns) by (rewrite arrived_app; apply app_nil_r).
  constructor; cbn [l_now l_queue l_dev l_focus]; auto; try lia; try (intros i; specialize (li_now0 i); lia).
  - intros i. destruct (Dn i) as [-> ->]. auto.
  - intros i. destruct (Dn i) as [_ ->]. auto.
  - rewrite An, Sn. exact li_fly0.
  - rewrite Tn, passed_app. cbn [passed flat_map app]. rewrite <- app_assoc. exact li_arr0.
  - rewrite Sn, Rn. exact li_drop0.
  - intros r. rewrite focus_app. unfold n. cbn [focus]. auto.
  - intros n1 t0 f0 ok n2 E. apply split_snoc in E. destruct E as [(n3 & E & _)|(_ & E & _)]; [eauto|discriminate].
  - intros t0 f0 H. apply in_app_or in H. destruct H as [H|[H|[]]]; [eauto|]. injection H as <- <-. reflexivity.
  - intros t0 i o ev H. apply in_app_or in H. destruct H as [H|[H|[]]]; [eauto|discriminate].
Qed.

Lemma inv_turn : forall ns y r x, l_inv ns y ->
  l_inv (ns ++ [KTurn (l_now y) r x]) (mkL (l_now y) (l_queue y) (l_dev y) (at_index (l_focus y) r x)).
Proof.
  intros ns y r x I. destruct I. set (n := KTurn (l_now y) r x : knote).
  destruct (past_app (l_now y) ns [n] li_past0) as [Ti Pa]; [intros m [<-|[]]; reflexivity|exact li_times0|].
  assert (Dn : forall i, dev_ops i (ns ++ [n]) = dev_ops i ns /\ dev_events i (ns ++ [n]) = dev_events i ns).
  { intros i. rewrite dev_ops_app, dev_events_app. cbn. rewrite !app_nil_r. auto. }
  assert (Sn : sendings (ns ++ [n]) = sendings ns) by (rewrite sendings_app; apply app_nil_r).
  assert (Rn : dropped (ns ++ [n]) = dropped ns) by (rewrite dropped_app; apply app_nil_r).
  assert (Tn : taken (ns ++ [n]) = taken ns) by (rewrite taken_app; apply app_nil_r).
  assert (An : arrived (ns ++ [n]) = arrived ns) by (rewrite arrived_app; apply app_nil_r).
  assert (Pn : passed (ns ++ [n]) = passed ns) by (rewrite passed_app; apply app_nil_r).
  constructor; cbn [l_now l_queue l_dev l_focus]; auto; try lia; try (intros i; specialize (li_now0 i); lia).
  - intros i. destruct (Dn i) as [-> ->]. auto.
  - intros i. destruct (Dn i) as [_ ->]. auto.
  - rewrite An, Sn. exact li_fly0.
  - rewrite Tn, Pn. exact li_arr0.
  - rewrite Sn, Rn. exact li_drop0.
  - intros r'. rewrite focus_app. unfold n. cbn [focus]. destruct (Nat.eqb_spec r r') as [<-|Ne].
    + apply at_same.
    + rewrite at_other by congruence. auto.
  - intros n1 t0 f0 ok n2 E. apply split_snoc in E. destruct E as [(n3 & E & _)|(_ & E & _)]; [eauto|discriminate].
  - intros t0 f0 H. apply in_app_or in H. destruct H as [H|[H|[]]]; [eauto|discriminate].
  - intros t0 i o ev H. apply in_app_or in H. destruct H as [H|[H|[]]]; [eauto|discriminate].
Qed.

Lemma device_call_ok : forall y t i o y' ns', device_call y t i o = Ok (y', ns') ->
  exists d ev q n, step i (l_dev y i) o = Some (Ok (d, ev)) /\ fly t i ev (l_queue y) = Ok (q, n) /\
    y' = mkL (l_now y) q (at_index (l_dev y) i d) (l_focus y) /\ ns' = KDev t i o ev :: n.
Proof.
  intros y t i o y' ns' H. unfold LinkModel.device_call in H.
  destruct (step i (l_dev y i) o) as [[[d ev]| | |]|]; cbn [rbind] in H; try discriminate.
  destruct (fly t i ev (l_queue y)) as [[q n]| | |] eqn:E; cbn [rbind] in H; try discriminate. injection H as <- <-. eauto 8.
Qed.

(** The end of a transmission comes when the device expects it. *)
Lemma done_pending : forall ns y t i q, l_inv ns y -> l_queue y = (t, LDone i) :: q ->
  exists c, s_pending (l_dev y i) = [c] /\ c_end c = t.
Proof.
  intros ns y t i q I Eq. pose proof (li_ends _ _ I i) as E. rewrite Eq in E. unfold ends in E. cbn [flat_map snd fst] in E.
  rewrite Nat.eqb_refl in E. cbn [app] in E. fold (ends i q) in E.
  destruct (t_shape _ _ _ (inv_serial _ _ _ (li_inv _ _ I i))) as [(_ & P & _)|(_ & c & P)]; rewrite P in E; cbn [map] in E.
  - symmetry in E. apply Permutation_nil in E. discriminate.
  - exists c. split; [exact P|]. symmetry in E. apply Permutation_length_1_inv in E. injection E as <- _. reflexivity.
Qed.

Lemma l_step_inv : forall ns y o y' ns', l_inv ns y -> l_step y o = Some (Ok (y', ns')) -> l_inv (ns ++ ns') y'.
Proof.
  intros ns y o y' ns' I H. destruct o as [t i u p|t r x|]; cbn [LinkModel.l_step] in H.
  - destruct (ready y t) eqn:Rd; [|discriminate]. apply some_inj in H. apply device_call_ok in H.
    destruct H as (d & ev & q & n & St & Fl & -> & ->). cbn [l_dev l_queue l_now l_focus] in *.
    pose proof (inv_wait _ _ _ I Rd) as I1.
    eapply (inv_device ns _ i (SSend t u p) d ev q n (l_queue y) I1); cbn [l_dev l_queue l_now l_focus]; auto.
    destruct (inv_step _ _ _ _ _ _ (li_inv _ _ I i) St) as [_ Mv]. inversion Mv; reflexivity.
  - destruct (ready y t) eqn:Rd; [|discriminate]. injection H as <- <-. apply (inv_turn ns _ r x (inv_wait _ _ _ I Rd)).
  - destruct (l_queue y) as [|[t e] q] eqn:Eq; [discriminate|]. apply some_inj in H. destruct e as [i|f|f].
    + apply device_call_ok in H. destruct H as (d & ev & q' & n & St & Fl & -> & ->). cbn [l_dev l_queue l_now l_focus] in *.
      destruct (done_pending _ _ _ _ _ I Eq) as (c & Pe & Ec).
      assert (I1 : l_inv ns (mkL t (l_queue y) (l_dev y) (l_focus y))).
      { apply inv_wait; [exact I|]. unfold ready. destruct I. rewrite Eq in *. pose proof (Forall_inv li_future0) as Fu. cbn in Fu.
        inversion li_sorted0 as [|? ? So Sh]. subst. apply andb_true_iff. split; [apply Z.leb_le; lia|]. apply forallb_forall.
        intros x [<-|Hx]; apply Z.leb_le; [cbn; lia|]. rewrite Forall_forall in Sh. apply (Sh x Hx). }
      eapply (inv_device ns _ i SComplete d ev q' n q I1); cbn [l_dev l_queue l_now l_focus]; auto.
      destruct (inv_step _ _ _ _ _ _ (li_inv _ _ I i) St) as [_ Mv]. inversion Mv; subst; cbn [s_now]; congruence.
    + injection H as <- <-. pose proof (inv_receive ns y t f q I Eq) as J. cbn [receive fst snd] in J. exact J.
    + injection H as <- <-. apply inv_up; assumption.
Qed.

Lemma l_run_app : forall a b y, l_run y (a ++ b) =
  match l_run y a with
  | Some (Ok (y1, n1)) => match l_run y1 b with Some (Ok (y2, n2)) => Some (Ok (y2, n1 ++ n2)) | x => x end
  | x => x end.
Proof.
  induction a as [|o a IH]; intros b y; cbn [LinkModel.l_run app].
  - destruct (l_run y b) as [[[y2 n2]| | |]|]; reflexivity.
  - destruct (l_step y o) as [[[y1 n1]| | |]|]; try reflexivity. rewrite IH.
    destruct (l_run y1 a) as [[[y2 n2]| | |]|]; try reflexivity.
    destruct (l_run y2 b) as [[[y3 n3]| | |]|]; try reflexivity. rewrite app_assoc. reflexivity.
Qed.

Lemma l_run_from : forall ops ns y y' ns', l_inv ns y -> l_run y ops = Some (Ok (y', ns')) -> l_inv (ns ++ ns') y'.
Proof.
  induction ops as [|o ops IH]; intros ns y y' ns' I R; cbn [LinkModel.l_run] in R.
  - injection R as <- <-. rewrite app_nil_r. exact I.
  - destruct (l_step y o) as [[[y1 n1]| | |]|] eqn:E; try discriminate.
    destruct (l_run y1 ops) as [[[y2 n2]| | |]|] eqn:G; try discriminate. injection R as <- <-.
    rewrite app_assoc. eapply IH; [|exact G]. eapply l_step_inv; eauto.
Qed.

Lemma l_run_inv : forall ops y ns, l_run (l_init x0) ops = Some (Ok (y, ns)) -> l_inv ns y.
Proof. intros ops y ns R. apply (l_run_from ops [] _ _ _ l_start R). Qed.

Lemma fly_quiet : forall ev t i q q' ns, fly t i ev q = Ok (q', ns) -> obeyed ns = [].
Proof. intros ev t i q q' ns H. destruct (fly_facts _ _ _ _ _ _ H) as (_ & _ & _ & _ & N & _). apply (drops_silent _ _ _ N). Qed.

Lemma run_obeys : forall ops y y' ns, l_run y ops = Some (Ok (y', ns)) -> obeyed ns = ordered ops.
Proof.
  induction ops as [|o ops IH]; intros y y' ns R; cbn [LinkModel.l_run] in R.
  - injection R as <- <-. reflexivity.
  - destruct (l_step y o) as [[[y1 n1]| | |]|] eqn:E; try discriminate.
    destruct (l_run y1 ops) as [[[y2 n2]| | |]|] eqn:G; try discriminate. injection R as <- <-.
    rewrite obeyed_app, (IH _ _ _ G). change (o :: ops) with ([o] ++ ops). unfold ordered at 2. rewrite flat_map_app. f_equal.
    destruct o as [t i u p|t r x|]; cbn [LinkModel.l_step] in E.
    + destruct (ready y t); [|discriminate]. apply some_inj in E. apply device_call_ok in E.
      destruct E as (d & ev & q & n & _ & Fl & _ & ->). change (KDev t i (SSend t u p) ev :: n) with ([KDev t i (SSend t u p) ev] ++ n).
      rewrite obeyed_app, (fly_quiet _ _ _ _ _ _ Fl). reflexivity.
    + destruct (ready y t); [|discriminate]. injection E as <- <-. reflexivity.
    + destruct (l_queue y) as [|[t e] q]; [discriminate|]. apply some_inj in E. destruct e as [i|f|f].
      * apply device_call_ok in E. destruct E as (d & ev & q' & n & _ & Fl & _ & ->).
        change (KDev t i SComplete ev :: n) with ([KDev t i SComplete ev] ++ n).
        rewrite obeyed_app, (fly_quiet _ _ _ _ _ _ Fl). reflexivity.
      * injection E as <- <-. reflexivity.
      * injection E as <- <-. reflexivity.
Qed.

(** ** Who sends when *)
Definition from (i : nat) (s : sending) : bool := (sd_from s =? i)%nat.
Lemma device_sendings : forall ns y i, l_inv ns y ->
  filter (from i) (sendings ns) = map (fun a => mkSending (a_start a) i (a_uid a) (a_proto a)) (airings (dev_events i ns)).
Proof.
  intros ns y i I. pose proof (li_air _ _ I) as Ai. clear I. induction ns as [|n ns IH]; [reflexivity|].
  change (n :: ns) with ([n] ++ ns). rewrite sendings_app, dev_events_app, airings_app, filter_app, map_app, IH by (intros; eapply Ai; right; eauto).
  f_equal. destruct n as [t j o ev| | | |]; try reflexivity. unfold sendings, dev_events. cbn [flat_map]. rewrite !app_nil_r.
  destruct (Ai t j o ev (or_introl eq_refl)) as (_ & A & _). clear - A.
  assert (X : forall l, (forall a, In a l -> a_start a = t) -> filter (from i) (map (fun a => mkSending t j (a_uid a) (a_proto a)) l)
     = if (j =? i)%nat then map (fun a => mkSending (a_start a) i (a_uid a) (a_proto a)) l else []).
  { induction l as [|a l IH]; intros H; cbn [map filter]; [destruct (j =? i)%nat; reflexivity|].
    rewrite IH by (intros; apply H; right; assumption). unfold from at 1. cbn [sd_from]. rewrite (H a (or_introl eq_refl)).
    destruct (Nat.eqb_spec j i) as [->|]; reflexivity. }
  rewrite X.
  - destruct (j =? i)%nat; reflexivity.
  - intros a Ha. apply A. unfold airings in Ha. apply in_flat_map in Ha. destruct Ha as (e & He & H). destruct e; cbn in H; try contradiction.
    destruct H as [->|[]]. exact He.
Qed.

(** Transmissions of one device do not overlap. *)
Definition spaced (i : nat) (a b : sending) : Prop := sd_time a + dur i (sd_uid a) <= sd_time b.
Lemma sendings_spaced : forall ns y i, l_inv ns y -> StronglySorted (spaced i) (filter (from i) (sendings ns)).
Proof.
  intros ns y i I. rewrite (device_sendings ns y i I).
  assert (T : exists r rest, in_turn (dur i) 0 r = starts (airings (dev_events i ns)) ++ rest).
  { pose proof (inv_serial _ _ _ (li_inv _ _ I i)) as [_ Sh _ _ _].
    destruct Sh as [(_ & _ & _ & _ & E)|(c & l & _ & _ & _ & _ & E & _)].
    - exists (requests (dev_events i ns)), []. rewrite app_nil_r. congruence.
    - eauto. }
  destruct T as (r & rest & T). clear I. revert r rest T.
  assert (Gen : forall l f r rest, in_turn (dur i) f r = starts l ++ rest ->
    StronglySorted (spaced i) (map (fun a => mkSending (a_start a) i (a_uid a) (a_proto a)) l)).
  { induction l as [|a l IH]; intros f r rest T; cbn [map]; [constructor|].
    destruct r as [|[t u] r]; cbn [in_turn starts map app] in T; [discriminate|]. fold (starts l) in T. injection T as E1 E2 T.
    constructor; [eapply IH; exact T|]. apply Forall_forall. intros s Hs. apply in_map_iff in Hs. destruct Hs as (b & <- & Hb).
    unfold spaced. cbn [sd_time sd_uid]. rewrite <- E1, <- E2.
    assert (In (a_start b, a_uid b) (in_turn (dur i) (Z.max f t + dur i u) r)).
    { rewrite T. apply in_or_app. left. apply in_map_iff. exists b. auto. }
    apply (in_turn_after (dur i) (dur_pos i)) in H. exact H. }
  intros. eapply Gen; eauto.
Qed.

(** ** What is still to come is later than what has been *)
Lemma to_come : forall ns y f g, l_inv ns y -> In f (passed ns) -> In g (arriving (l_queue y) ++ flying (l_queue y)) -> fl_end f <= fl_end g.
Proof.
  intros ns y f g I Hf Hg. unfold passed in Hf. apply in_flat_map in Hf. destruct Hf as (n & Hn & Hf). destruct n; cbn in Hf; try contradiction.
  destruct Hf as [->|[]]. pose proof (li_ups _ _ I _ _ Hn) as E. pose proof (li_past _ _ I) as Pa. rewrite Forall_forall in Pa. specialize (Pa _ Hn). cbn in Pa.
  pose proof (li_future _ _ I) as Fu. rewrite Forall_forall in Fu. pose proof (li_events _ _ I) as Ev. rewrite Forall_forall in Ev.
  apply in_app_or in Hg. destruct Hg as [Hg|Hg].
  - unfold arriving in Hg. apply in_flat_map in Hg. destruct Hg as ([t' e] & Hq & Hg). cbn in Hg. destruct e; cbn in Hg; try contradiction.
    destruct Hg as [->|[]]. specialize (Fu _ Hq). specialize (Ev _ Hq). cbn in *. lia.
  - pose proof (li_lasts _ _ I _ Hg) as La. unfold flying in Hg. apply in_flat_map in Hg. destruct Hg as ([t' e] & Hq & Hg). cbn in Hg.
    destruct e; cbn in Hg; try contradiction. destruct Hg as [->|[]]. specialize (Fu _ Hq). specialize (Ev _ Hq). cbn in *. unfold fl_end at 2. lia.
Qed.

Lemma passed_sorted : forall ns y, l_inv ns y -> StronglySorted Z.le (map fl_end (passed ns)).
Proof.
  intros ns y I. pose proof (li_times _ _ I) as T. pose proof (li_ups _ _ I) as U. clear I.
  induction ns as [|n ns IH]; [constructor|]. cbn [map] in T. inversion T as [|? ? T1 T2]; subst.
  assert (IH' : StronglySorted Z.le (map fl_end (passed ns))) by (apply IH; [exact T1|intros; apply U; right; assumption]).
  change (n :: ns) with ([n] ++ ns). rewrite passed_app, map_app. destruct n as [| | | |t f]; try exact IH'.
  cbn [passed flat_map app map]. constructor; [exact IH'|]. apply Forall_forall. intros e He. apply in_map_iff in He.
  destruct He as (g & <- & Hg). unfold passed in Hg. apply in_flat_map in Hg. destruct Hg as (m & Hm & Hg). destruct m as [| | | |t' f']; cbn in Hg; try contradiction.
  destruct Hg as [->|[]]. rewrite <- (U t f (or_introl eq_refl)), <- (U t' g (or_intror Hm)).
  rewrite Forall_forall in T2. apply (T2 t'). apply in_map_iff. exists (KUp t' g). auto.
Qed.

Lemma sorted_filter : forall A (R : A -> A -> Prop) f l, StronglySorted R l -> StronglySorted R (filter f l).
Proof.
  induction l as [|x l IH]; intros S; [constructor|]. inversion S as [|? ? S1 S2]; subst. cbn [filter]. destruct (f x); [|auto]. constructor; [auto|].
  apply Forall_forall. intros z Hz. apply filter_In in Hz. rewrite Forall_forall in S2. apply S2. tauto.
Qed.

Lemma sorted_prefix : forall A (key : A -> Z) (a b l : list A), Permutation (a ++ b) l -> StronglySorted (fun x y => key x < key y) l ->
  StronglySorted Z.le (map key a) -> (forall x y, In x a -> In y b -> key x <= key y) -> exists rest, l = a ++ rest /\ Permutation b rest.
Proof.
  intros A key. induction a as [|x a IH]; intros b l P S Sa Ab.
  - exists l. split; [reflexivity|exact P].
  - destruct l as [|y l]. { symmetry in P. apply Permutation_nil in P. discriminate. }
    inversion S as [|? ? S1 S2]; subst. inversion Sa as [|? ? Sa1 Sa2]; subst.
    assert (x = y).
    { assert (In x (y :: l)) by (apply (Permutation_in _ P); left; reflexivity). destruct H as [|Hx]; [auto|].
      assert (Hy : In y ((x :: a) ++ b)) by (apply (Permutation_in _ (Permutation_sym P)); left; reflexivity).
      rewrite Forall_forall in S2. specialize (S2 x Hx). cbn in S2. destruct Hy as [|Hy]; [auto|]. exfalso.
      apply in_app_or in Hy. destruct Hy as [Hy|Hy].
      - rewrite Forall_forall in Sa2. specialize (Sa2 (key y)). pose proof (Sa2 (in_map key _ _ Hy)). lia.
      - specialize (Ab x y (or_introl eq_refl) Hy). lia. }
    subst y. apply Permutation_cons_inv in P. destruct (IH b l P S1 Sa1) as (rest & -> & Pr).
    + intros; apply Ab; [right|]; assumption.
    + exists rest. auto.
Qed.

(** ** Nothing fails, and the queue runs empty *)
Hypothesis spread_ok : forall t i u p, exists hops, spread t i u p = Ok hops.
Hypothesis step_send : forall i d t u p, on_time d t = true -> step i d (SSend t u p) <> None.
Hypothesis step_done : forall i d c, s_pending d = [c] -> step i d SComplete <> None.
(** A device may refuse to go on with a packet that it knows already. *)
Variable known : nat -> sdev -> Z -> Prop.
Hypothesis known_init : forall i u, ~ known i s_init u.
Hypothesis known_step : forall i d o d' ev u, step i d o = Some (Ok (d', ev)) -> known i d' u -> known i d u \/ exists t p, o = SSend t u p.
Hypothesis step_ok : forall i d tr o r, inv i d tr -> step i d o = Some r ->
  (forall t u p, o = SSend t u p -> ~ known i d u) -> exists x, r = Ok x.

Lemma fly_ok : forall ev t i q, exists x, fly t i ev q = Ok x.
Proof.
  induction ev as [|e ev IH]; intros t i q; cbn [LinkModel.fly]; [eauto|]. destruct e as [| |a]; auto.
  destruct (spread_ok t i (a_uid a) (a_proto a)) as [hops ->]. cbn [rbind].
  destruct (IH t i (put (t + dur i (a_uid a)) (LDone i) (put_all (reach_events t i (a_uid a) (a_proto a) hops) q))) as [[q' n] ->].
  cbn [rbind]. eauto.
Qed.

Lemma ready_on_time : forall ns y t i, l_inv ns y -> ready y t = true -> on_time (l_dev y i) t = true.
Proof.
  intros ns y t i I R. unfold ready in R. apply andb_true_iff in R. destruct R as [R1 R2]. apply Z.leb_le in R1. rewrite forallb_forall in R2.
  unfold on_time. apply andb_true_iff. split; [apply Z.leb_le; pose proof (li_now _ _ I i); lia|].
  apply forallb_forall. intros c Hc. apply Z.leb_le.
  assert (H : In (c_end c) (ends i (l_queue y))).
  { apply (Permutation_in _ (Permutation_sym (li_ends _ _ I i))). apply in_map. exact Hc. }
  unfold ends in H. apply in_flat_map in H. destruct H as ([t' e] & Hq & H). cbn [snd fst] in H. destruct e as [j| |]; try contradiction.
  destruct (j =? i)%nat; [|contradiction]. destruct H as [<-|[]]. specialize (R2 _ Hq). apply Z.leb_le in R2. exact R2.
Qed.

Lemma call_safe : forall ns y t i o, l_inv ns y -> step i (l_dev y i) o <> None ->
  (forall t' u p, o = SSend t' u p -> ~ known i (l_dev y i) u) -> forall q x,
  exists r, device_call (mkL t q (l_dev y) x) t i o = Ok r.
Proof.
  intros ns y t i o I N K q x. unfold LinkModel.device_call. cbn [l_dev l_queue l_now l_focus].
  destruct (step i (l_dev y i) o) as [r|] eqn:E; [|congruence].
  destruct (step_ok _ _ _ _ _ (li_inv _ _ I i) E K) as [[d ev] ->]. cbn [rbind].
  destruct (fly_ok ev t i q) as [[q' n] ->]. cbn [rbind]. eauto.
Qed.

Definition fresh_for (ops : list (lop (F := F))) (y : lstate) : Prop := forall i u, In u (given ops) -> ~ known i (l_dev y i) u.

Lemma safe_step : forall ns y o, l_inv ns y -> fresh_for [o] y ->
  forall r, l_step y o = Some r -> exists x, r = Ok x.
Proof.
  intros ns y o I Fr r S. destruct o as [t i u p|t j x|]; cbn [LinkModel.l_step] in S.
  - destruct (ready y t) eqn:Rd; [|discriminate]. apply some_inj in S. subst r.
    apply (call_safe ns y t i (SSend t u p) I); [apply step_send; eapply ready_on_time; eauto|].
    intros t' u' p' E. injection E as _ <- _. apply (Fr i u). left. reflexivity.
  - destruct (ready y t); [|discriminate]. injection S as <-. eauto.
  - destruct (l_queue y) as [|[t e] q] eqn:Eq; [discriminate|]. apply some_inj in S. subst r. destruct e as [i|f|f]; eauto.
    destruct (done_pending _ _ _ _ _ I Eq) as (c & Pe & Ec).
    apply (call_safe ns y t i SComplete I); [eapply step_done; eauto|discriminate].
Qed.

Lemma known_kept : forall y o y' ns' i u, l_step y o = Some (Ok (y', ns')) -> known i (l_dev y' i) u ->
  known i (l_dev y i) u \/ In u (given [o]).
Proof.
  assert (Call : forall y t i o y' ns' j u, device_call y t i o = Ok (y', ns') -> known j (l_dev y' j) u ->
    known j (l_dev y j) u \/ exists t p, o = SSend t u p).
  { intros y t i o y' ns' j u H K. apply device_call_ok in H. destruct H as (d & ev & q & n & St & _ & -> & _). cbn [l_dev] in K.
    destruct (Nat.eq_dec j i) as [->|Ne]; [rewrite at_same in K; eapply known_step; eauto|rewrite at_other in K by exact Ne; auto]. }
  intros y o y' ns' i u S K. destruct o as [t j v p|t r x|]; cbn [LinkModel.l_step] in S.
  - destruct (ready y t); [|discriminate]. apply some_inj in S. destruct (Call _ _ _ _ _ _ _ _ S K) as [H|(t' & p' & E)]; [auto|].
    injection E as _ <- _. right. left. reflexivity.
  - destruct (ready y t); [|discriminate]. injection S as <- <-. auto.
  - destruct (l_queue y) as [|[t e] q]; [discriminate|]. apply some_inj in S. destruct e as [j|f|f].
    + destruct (Call _ _ _ _ _ _ _ _ S K) as [H|(t' & p' & E)]; [auto|discriminate].
    + injection S as <- _. left. destruct (hears _ _) in K; exact K.
    + injection S as <- <-. auto.
Qed.

Lemma safe_from : forall ops ns y r, l_inv ns y -> NoDup (given ops) -> fresh_for ops y -> l_run y ops = Some r -> exists x, r = Ok x.
Proof.
  induction ops as [|o ops IH]; intros ns y r I N Fr R; cbn [LinkModel.l_run] in R; [injection R as <-; eauto|].
  change (o :: ops) with ([o] ++ ops) in N, Fr. unfold given in N. rewrite flat_map_app in N. fold (given [o]) (given ops) in N.
  destruct (l_step y o) as [r1|] eqn:S; [|discriminate].
  destruct (safe_step ns y o I) with (r := r1) as [[y1 n1] ->]; [|exact S|].
  { intros i u Hu. apply Fr. unfold given. rewrite flat_map_app. apply in_or_app. left. exact Hu. }
  destruct (l_run y1 ops) as [r2|] eqn:E; [|discriminate].
  destruct (IH (ns ++ n1) y1 r2 (l_step_inv _ _ _ _ _ I S)) as [[y2 n2] ->].
  - clear - N. induction (given [o]); [exact N|]. inversion N. auto.
  - intros i u Hu K. destruct (known_kept _ _ _ _ _ _ S K) as [K'|H].
    + apply (Fr i u); [|exact K']. unfold given. rewrite flat_map_app. apply in_or_app. right. exact Hu.
    + clear - N Hu H. induction (given [o]) as [|x l IHl]; [destruct H|]. cbn in N. inversion N as [|? ? N1 N2]; subst. destruct H as [<-|H].
      * apply N1. apply in_or_app. right. exact Hu.
      * auto.
  - exact E.
  - injection R as <-. eauto.
Qed.

Lemma l_safe : forall ops r, NoDup (given ops) -> l_run (l_init x0) ops = Some r -> exists x, r = Ok x.
Proof. intros ops r N R. eapply safe_from; [apply l_start|exact N| |exact R]. intros i u _. apply known_init. Qed.

(** How much is left to do. *)
Definition weight (q : list (Z * levent)) : nat :=
  fold_right (fun e n => ((match snd e with LArrive _ => 2 | _ => 1 end) + n)%nat) 0%nat q.
Definition backlog (l : list nat) (dv : nat -> sdev) : nat := fold_right (fun i n => (length (s_queue (dv i)) + n)%nat) 0%nat l.

Lemma weight_put : forall t e q, weight (put t e q) = (match e with LArrive _ => 2 | _ => 1 end + weight q)%nat.
Proof.
  induction q as [|x q IH]; cbn [put weight fold_right snd]; [reflexivity|]. destruct (fst x <=? t); cbn [weight fold_right snd]; [|reflexivity].
  fold (weight (put t e q)) (weight q). rewrite IH. lia.
Qed.

Lemma backlog_cons : forall j l dv, backlog (j :: l) dv = (length (s_queue (dv j)) + backlog l dv)%nat.
Proof. reflexivity. Qed.
Lemma backlog_le : forall l dv i d, (length (s_queue d) <= length (s_queue (dv i)))%nat ->
  (backlog l (at_index dv i d) <= backlog l dv)%nat.
Proof.
  intros l dv i d Le. induction l as [|j l IH]; [reflexivity|]. rewrite !backlog_cons.
  destruct (Nat.eq_dec j i) as [->|Ne]; [rewrite at_same|rewrite at_other by exact Ne]; lia.
Qed.
Lemma backlog_less : forall l dv i d, In i l -> (length (s_queue d) < length (s_queue (dv i)))%nat ->
  (backlog l (at_index dv i d) < backlog l dv)%nat.
Proof.
  intros l dv i d Hi Lt. induction l as [|j l IH]; [destruct Hi|]. rewrite !backlog_cons.
  pose proof (backlog_le l dv i d ltac:(lia)) as Le.
  destruct (Nat.eq_dec j i) as [->|Ne]; [rewrite at_same; lia|rewrite at_other by exact Ne].
  destruct Hi as [->|Hi]; [congruence|]. specialize (IH Hi). lia.
Qed.
Lemma backlog_same : forall l dv i d, length (s_queue d) = length (s_queue (dv i)) -> backlog l (at_index dv i d) = backlog l dv.
Proof.
  intros l dv i d E. induction l as [|j l IH]; [reflexivity|]. rewrite !backlog_cons, IH.
  destruct (Nat.eq_dec j i) as [->|Ne]; [rewrite at_same|rewrite at_other by exact Ne]; lia.
Qed.

Lemma runs_dry : forall l b w ns y, backlog l (l_dev y) = b -> weight (l_queue y) = w -> l_inv ns y ->
  (forall i, ~ In i l -> s_pending (l_dev y i) = []) ->
  exists k y' ns', l_run y (repeat LNext k) = Some (Ok (y', ns')) /\ l_queue y' = [].
Proof.
  intros l b. induction b as [b IHb] using lt_wf_ind. intros w. induction w as [w IHw] using lt_wf_ind. intros ns y Eb Ew I Out.
  destruct (l_queue y) as [|[t e] q] eqn:Eq. { exists 0%nat, y, []. split; [reflexivity|exact Eq]. }
  assert (Fr : fresh_for [LNext] y) by (intros i u []).
  assert (S : exists r, l_step y LNext = Some r). { cbn [LinkModel.l_step]. rewrite Eq. eauto. }
  destruct S as [r S]. destruct (safe_step ns y LNext I Fr r S) as [[y1 n1] ->].
  pose proof (l_step_inv _ _ _ _ _ I S) as I1.
  assert (Go : exists k y' ns', l_run y1 (repeat LNext k) = Some (Ok (y', ns')) /\ l_queue y' = []).
  { pose proof S as S0. cbn [LinkModel.l_step] in S0. rewrite Eq in S0. apply some_inj in S0. cbn [weight fold_right snd] in Ew. fold (weight q) in Ew. destruct e as [i|f|f].
    - destruct (done_pending _ _ _ _ _ I Eq) as (c & Pe & Ec). apply device_call_ok in S0.
      destruct S0 as (d & ev & q' & n & St & Fl & -> & ->). cbn [l_dev l_queue l_now l_focus] in *.
      assert (Il : In i l). { destruct (in_dec Nat.eq_dec i l) as [|No]; [assumption|]. rewrite (Out i No) in Pe. discriminate. }
      assert (Out1 : forall j, ~ In j l -> s_pending (at_index (l_dev y) i d j) = []).
      { intros j Nj. rewrite at_other by (intros ->; contradiction). auto. }
      destruct (inv_step _ _ _ _ _ _ (li_inv _ _ I i) St) as [_ Mv]. inversion Mv as [| | |c1 tags P1 Q1|c1 u q1 p' tags P1 Q1]; subst.
      + cbn [LinkModel.fly] in Fl. injection Fl as <- <-. eapply (IHw (weight q)); [lia| |reflexivity|exact I1|exact Out1].
        apply backlog_same. rewrite Q1. reflexivity.
      + eapply IHb; [|reflexivity|reflexivity|exact I1|exact Out1]. apply backlog_less; [exact Il|]. rewrite Q1. cbn. lia.
    - injection S0 as <- <-. cbn [receive fst snd] in *. destruct (hears _ _).
      + eapply (IHw (weight (put (t + fl_lasts f) (LFinish f) q))); [rewrite weight_put; lia| |reflexivity|exact I1|exact Out]. exact Eb.
      + eapply (IHw (weight q)); [lia| |reflexivity|exact I1|exact Out]. exact Eb.
    - injection S0 as <- <-. eapply (IHw (weight q)); [lia| |reflexivity|exact I1|exact Out]. exact Eb. }
  destruct Go as (k & y' & ns' & R & Q). exists (Datatypes.S k), y', (n1 ++ ns'). cbn [repeat LinkModel.l_run]. rewrite S, R. auto.
Qed.

Lemma l_settles : forall ops y ns, l_run (l_init x0) ops = Some (Ok (y, ns)) ->
  exists k y' ns', l_run (l_init x0) (ops ++ repeat LNext k) = Some (Ok (y', ns')) /\ l_queue y' = [].
Proof.
  intros ops y ns R. pose proof (l_run_inv _ _ _ R) as I.
  destruct (runs_dry (flat_map (fun n => match n with KDev _ i _ _ => [i] | _ => [] end) ns) _ _ ns y eq_refl eq_refl I) as (k & y' & n' & R' & Q).
  - intros i Ni. pose proof (li_dev _ _ I i) as D. assert (E : dev_ops i ns = []).
    { clear - Ni. induction ns as [|n ns IH]; [reflexivity|]. cbn [flat_map] in Ni. change (n :: ns) with ([n] ++ ns). rewrite dev_ops_app, IH.
      - destruct n as [t j o ev| | | |]; try reflexivity. cbn [dev_ops flat_map]. destruct (Nat.eqb_spec j i) as [->|]; [|reflexivity].
        exfalso. apply Ni. left. reflexivity.
      - intros H. apply Ni. apply in_or_app. right. exact H. }
    rewrite E in D. injection D as <- _. reflexivity.
  - exists k, y', (ns ++ n'). rewrite l_run_app, R, R'. auto.
Qed.

(** At rest every device has sent all it accepted. *)
Lemma at_rest : forall ns y i, l_inv ns y -> l_queue y = [] ->
  starts (airings (dev_events i ns)) = in_turn (dur i) 0 (requests (dev_events i ns)) /\ s_queue (l_dev y i) = [] /\ s_busy (l_dev y i) = false.
Proof.
  intros ns y i I Q. pose proof (li_ends _ _ I i) as E. rewrite Q in E. cbn in E. apply Permutation_nil in E.
  pose proof (inv_serial _ _ _ (li_inv _ _ I i)) as [_ Sh _ _ _].
  destruct Sh as [(B & P & Qe & _ & St)|(c & l & _ & P & _)]; [auto|]. rewrite P in E. discriminate.
Qed.
End Link.
