(** Theorems about the trackers. *)
From Coq Require Import ZArith QArith List Lia Bool Arith Permutation.
From Verif Require Import Base SatAddrModel ConstellationModel ConstellationSpec ConstellationProofs ConstellationProps TrackerModel.
Import ListNotations.
Open Scope Z_scope.

(** * C50: periodic tracker *)

(** When the updates should run: at the start, at the random offset, then every interval. *)
Definition update_time (t0 interval offset : Z) (n : nat) : Z :=
  match n with O => t0 | S k => t0 + offset + Z.of_nat k * interval end.

(** [d] is a satellite that is as close as any other at time [t]. *)
Definition closest_dev {A} (leb : A -> A -> bool) (sq : Z -> nat -> A) (adds : list (nat * nat * nat)) (t : Z) (d : nat) : Prop :=
  In d (map dev_of adds) /\ forall x, In x (map dev_of adds) -> leb (sq t d) (sq t x) = true.

(** [a] is the address of a satellite that is as close as any other at time [t]. *)
Definition closest_at (adds : list (nat * nat * nat)) (pos : Z -> nat -> vec3) (here : Z -> vec3) (addr : nat -> sat_address)
  (t : Z) (a : sat_address) : Prop :=
  exists d, In d (map dev_of adds) /\ a = addr d /\
    forall x, In x (map dev_of adds) -> (apart (pos t d) (here t) <= apart (pos t x) (here t))%Q.

Section Periodic.
Variables (h : host) (id : Z) (P S : nat) (adds : list (nat * nat * nat)) (c : constellation) (addrs : list sat_address).
Hypothesis R : run_adds h (con_new id P S) adds = Ok (c, addrs).
Context {A : Type} (leb : A -> A -> bool).
Hypothesis Ord : total_order leb.
Variables (sq : Z -> nat -> A) (addr : nat -> sat_address).

Let cl t a := exists d, a = addr d /\ closest_dev leb sq adds t d.

Lemma update_once_closest : forall t, adds <> [] ->
  exists a, update_once c leb sq addr t = Ok a /\ cl t a.
Proof.
  intros t Ne. destruct (closest_by_is_closest A leb (sq t) h id P S adds c addrs Ord R) as [N B].
  unfold update_once. destruct (get_closest_by leb (sq t) c) as [d|] eqn:G.
  - exists (addr d). split; [reflexivity|]. destruct (B d eq_refl) as (I & M & _). exists d. split; [reflexivity|]. split; auto.
  - exfalso. apply Ne, N. reflexivity.
Qed.

Lemma update_once_empty : forall t, adds = [] -> update_once c leb sq addr t = UB.
Proof.
  intros t E. destruct (closest_by_is_closest A leb (sq t) h id P S adds c addrs Ord R) as [N B].
  unfold update_once. rewrite (proj2 N E). reflexivity.
Qed.

Variables (t0 interval offset : Z) (r0 : sat_address).
Hypothesis Hi : 0 < interval.
Hypothesis Ho : 0 <= offset <= interval.

Let run n := periodic_run c leb sq addr interval n (periodic_init interval offset t0 r0).
Let upd := update_time t0 interval offset.

Lemma periodic_snoc : forall n s s', periodic_run c leb sq addr interval n s = Some (Ok s') ->
  periodic_run c leb sq addr interval (Datatypes.S n) s = periodic_step c leb sq addr interval s'.
Proof.
  induction n as [|n IH]; intros s s' H; cbn [periodic_run] in *.
  - injection H as <-. destruct (periodic_step c leb sq addr interval s) as [[x| | |]|]; reflexivity.
  - destruct (periodic_step c leb sq addr interval s) as [[x| | |]|]; try discriminate.
    rewrite <- (IH x s' H). reflexivity.
Qed.

Lemma periodic_state : adds <> [] -> forall n, exists s,
  run (Datatypes.S n) = Some (Ok s) /\ tr_now s = upd n /\
  cl (upd n) (tr_remote s) /\ tr_events s = [(upd (Datatypes.S n), PeriodicUpdate)] /\
  map fst (tr_log s) = map upd (seq 0 (Datatypes.S n)) /\
  Forall (fun e => cl (fst e) (snd e)) (tr_log s).
Proof.
  intros Ne. assert (Ev : tr_events (periodic_init interval offset t0 r0) = [(t0, UpdateOnce); (t0 + offset, PeriodicUpdate)]).
  { unfold periodic_init. destruct (Z.eqb_spec interval 0); [lia|]. cbn. destruct (Z.leb_spec t0 (t0 + offset)); [reflexivity|lia]. }
  induction n as [|n (s & Rn & Nw & Cl & Evs & Lg & Lc)].
  - destruct (update_once_closest t0 Ne) as (a & U & C).
    unfold run. cbn [periodic_run]. unfold periodic_step. rewrite Ev, U. cbn [rbind].
    eexists. split; [reflexivity|]. cbn. rewrite Z.add_0_r. repeat split; auto.
  - destruct (update_once_closest (upd (Datatypes.S n)) Ne) as (a & U & C).
    unfold run. rewrite (periodic_snoc (Datatypes.S n) _ s Rn). unfold periodic_step. rewrite Evs, U. cbn [rbind].
    eexists. split; [reflexivity|]. cbn [tr_now tr_remote tr_events tr_log].
    split; [reflexivity|]. split; [exact C|]. split; [|split].
    + cbn [tr_schedule]. do 2 f_equal. unfold upd, update_time. lia.
    + rewrite map_app, Lg, (seq_S (Datatypes.S n)), map_app. reflexivity.
    + apply Forall_app. split; [exact Lc|]. constructor; [exact C|constructor].
Qed.
End Periodic.

(** Whatever the numbers that distances are computed in. *)
Lemma periodic_general : forall A leb (sq : Z -> nat -> A) h id P S adds c addrs addr t0 interval offset r0, total_order leb ->
  run_adds h (con_new id P S) adds = Ok (c, addrs) -> adds <> [] -> 0 < interval -> 0 <= offset <= interval ->
  let run n := periodic_run c leb sq addr interval n (periodic_init interval offset t0 r0) in
  let cl t a := exists d, a = addr d /\ closest_dev leb sq adds t d in
  (forall n, exists s, run (Datatypes.S n) = Some (Ok s) /\
     map fst (tr_log s) = map (update_time t0 interval offset) (seq 0 (Datatypes.S n)) /\
     Forall (fun e => cl (fst e) (snd e)) (tr_log s)) /\
  (forall t, t0 <= t -> exists n s m, run n = Some (Ok s) /\
     (forall e, In e (tr_events s) -> t < fst e) /\
     tr_now s = m /\ m <= t < m + interval /\ t0 <= m /\ cl m (tr_remote s)).
Proof.
  intros A leb sq h id P S adds c addrs addr t0 interval offset r0 O R Ne Hi Ho run cl.
  pose proof (periodic_state h id P S adds c addrs R leb O sq addr t0 interval offset r0 Hi Ho Ne) as St.
  split.
  - intros n. destruct (St n) as (s & X & _ & _ & _ & B & C). eauto.
  - intros t Ht. destruct (Z_lt_ge_dec t (t0 + offset)) as [L|G].
    + destruct (St 0%nat) as (s & X & N & C & E & _). exists 1%nat, s, t0. split; [exact X|]. rewrite E.
      split; [intros e [<-|[]]; cbn; lia|]. split; [exact N|]. split; [lia|]. split; [lia|exact C].
    + set (k := Z.to_nat ((t - t0 - offset) / interval)).
      assert (K : Z.of_nat k = (t - t0 - offset) / interval) by (apply Z2Nat.id, Z.div_pos; lia).
      pose proof (Z.div_mod (t - t0 - offset) interval ltac:(lia)) as DM.
      pose proof (Z.mod_pos_bound (t - t0 - offset) interval Hi) as MB.
      destruct (St (Datatypes.S k)) as (s & X & N & C & E & _).
      exists (Datatypes.S (Datatypes.S k)), s, (update_time t0 interval offset (Datatypes.S k)).
      split; [exact X|]. rewrite E. unfold update_time in *. rewrite Nat2Z.inj_succ in *. rewrite K in *.
      split; [intros e [<-|[]]; cbn [fst]; nia|]. split; [rewrite N; reflexivity|]. split; [nia|]. split; [nia|exact C].
Qed.

Lemma away_apart : forall pos here t x, (away pos here t x == apart (pos t x) (here t))%Q.
Proof. intros. unfold away, apart, sq_distance. destruct (pos t x) as [[ax ay] az], (here t) as [[bx by_] bz]. ring. Qed.

Lemma closest_dev_at : forall adds pos here (addr : nat -> sat_address) t a,
  (exists d, a = addr d /\ closest_dev Qle_bool (away pos here) adds t d) -> closest_at adds pos here addr t a.
Proof.
  intros adds pos here addr t a (d & E & I & M). exists d. split; [exact I|]. split; [exact E|]. intros x Hx.
  rewrite <- !away_apart. apply Qle_bool_iff, M, Hx.
Qed.

(** At initialisation, at the random point and then every interval, the closest satellite of that moment is set, so at
    any time [t] from the start the tracked satellite was the closest at some moment [m] less than an interval ago
    (and all updates due by [t] have run). *)
Theorem periodic_tracker : forall h id P S adds c addrs pos here addr t0 interval offset r0,
  run_adds h (con_new id P S) adds = Ok (c, addrs) -> adds <> [] -> 0 < interval -> 0 <= offset <= interval ->
  let run n := periodic_run c Qle_bool (away pos here) addr interval n (periodic_init interval offset t0 r0) in
  (forall n, exists s, run (Datatypes.S n) = Some (Ok s) /\
     map fst (tr_log s) = map (update_time t0 interval offset) (seq 0 (Datatypes.S n)) /\
     Forall (fun e => closest_at adds pos here addr (fst e) (snd e)) (tr_log s)) /\
  (forall t, t0 <= t -> exists n s m, run n = Some (Ok s) /\
     (forall e, In e (tr_events s) -> t < fst e) /\
     tr_now s = m /\ m <= t < m + interval /\ t0 <= m /\ closest_at adds pos here addr m (tr_remote s)).
Proof.
  intros h id P S adds c addrs pos here addr t0 interval offset r0 R Ne Hi Ho run.
  destruct (periodic_general _ _ (away pos here) h id P S adds c addrs addr t0 interval offset r0 Qle_bool_total R Ne Hi Ho) as [U V].
  split.
  - intros n. destruct (U n) as (s & X & B & C). exists s. split; [exact X|]. split; [exact B|].
    eapply Forall_impl; [|exact C]. intros e. apply closest_dev_at.
  - intros t Ht. destruct (V t Ht) as (n & s & m & X & B & Nw & C & D & E). exists n, s, m. repeat (split; [assumption|]).
    apply closest_dev_at. exact E.
Qed.
Print Assumptions periodic_tracker.

(** Interval zero: nothing ever happens. *)
Theorem periodic_disabled : forall c pos here addr offset t0 r0 n s,
  periodic_run c Qle_bool (away pos here) addr 0 n (periodic_init 0 offset t0 r0) = Some (Ok s) -> tr_remote s = r0 /\ tr_log s = [].
Proof.
  intros c pos here addr offset t0 r0 n s H. destruct n; cbn in H; [|discriminate]. injection H as <-. split; reflexivity.
Qed.
Print Assumptions periodic_disabled.

(** No satellite in orbit: the first update is undefined. *)
Theorem periodic_empty : forall h id P S c addrs pos here addr t0 interval offset r0,
  run_adds h (con_new id P S) [] = Ok (c, addrs) -> 0 < interval -> 0 <= offset ->
  periodic_run c Qle_bool (away pos here) addr interval 1 (periodic_init interval offset t0 r0) = Some UB.
Proof.
  intros h id P S c addrs pos here addr t0 interval offset r0 R Hi Ho. cbn [periodic_run]. unfold periodic_step, periodic_init.
  destruct (Z.eqb_spec interval 0); [lia|]. cbn [tr_schedule tr_events fst]. destruct (Z.leb_spec t0 (t0 + offset)); [|lia].
  cbn [tr_events]. rewrite (update_once_empty h id P S [] c addrs R Qle_bool Qle_bool_total (away pos here) addr t0 eq_refl). reflexivity.
Qed.
Print Assumptions periodic_empty.

(** Two satellites that swap places as time passes. *)
Definition swap_pos (t : Z) (d : nat) : vec3 := ((if (d =? 7)%nat then inject_Z t else inject_Z (20 - t)), 0%Q, 0%Q).
Example periodic_case :
  match run_adds LittleEndian (con_new 1 1 2) [(0, 0, 7); (0, 1, 8)]%nat with
  | Ok (c, _) =>
      match periodic_run c Qle_bool (away swap_pos (fun _ => (0, 0, 0)%Q)) (fun d => sat_make LittleEndian 1 0 (Z.of_nat d)) 10 4 (periodic_init 10 3 0 sat_default) with
      | Some (Ok s) => map fst (tr_log s) = [0; 3; 13; 23] /\
           map (fun e => get_index LittleEndian (snd e)) (tr_log s) = [7; 7; 8; 8] /\ tr_events s = [(33, PeriodicUpdate)]
      | _ => False
      end
  | _ => False
  end.
Proof. vm_compute. repeat split. Qed.

(** * C51: elevation tracker *)

Section Elev.
Variables (above : Z -> nat -> bool) (next_at : Z -> nat -> option Z) (half_period : nat -> Z).

(** A satellite that can be followed from [t] until [b]. *)
Definition usable_until (t : Z) (d : nat) (b : Z) : Prop := above t d = true /\ next_at t d = Some b.

Definition cand (t : Z) (dv : nat * nat -> nat) (pl : nat * nat) : list (Z * nat * nat) :=
  if above t (dv pl) then match next_at t (dv pl) with Some b => [(b - t, fst pl, snd pl)] | None => [] end else [].

Lemma visible_sats_ok : forall c t dv places,
  (forall pl, In pl places -> get_satellite c (fst pl) (snd pl) = Ok (Some (dv pl))) ->
  (forall pl b, In pl places -> usable_until t (dv pl) b -> b - t < half_period (dv pl)) ->
  visible_sats c above next_at half_period t places = Ok (flat_map (cand t dv) places).
Proof.
  intros c t dv. induction places as [|[p i] l IH]; intros G H; cbn [visible_sats flat_map]; [reflexivity|].
  pose proof (G (p, i) (or_introl eq_refl)) as E. cbn [fst snd] in E. rewrite E. cbn [rbind].
  assert (G' : forall pl, In pl l -> get_satellite c (fst pl) (snd pl) = Ok (Some (dv pl))) by (intros; apply G; right; assumption).
  assert (H' : forall pl b, In pl l -> usable_until t (dv pl) b -> b - t < half_period (dv pl)) by (intros; apply H; [right|]; assumption).
  unfold cand at 1. cbn [fst snd]. destruct (above t (dv (p, i))) eqn:A; [|apply IH; assumption].
  destruct (next_at t (dv (p, i))) as [b|] eqn:Nx; [|apply IH; assumption].
  specialize (H (p, i) b (or_introl eq_refl) (conj A Nx)).
  destruct (Z.ltb_spec (b - t) (half_period (dv (p, i)))); [|lia]. cbn [assert_ rbind].
  rewrite IH by assumption. reflexivity.
Qed.

Definition time_of (x : Z * nat * nat) : Z := fst (fst x).
Lemma max_by_time_spec : forall l m, max_by_time l = Some m ->
  exists l1 l2, l = l1 ++ m :: l2 /\ (forall x, In x l1 -> time_of x < time_of m) /\ (forall x, In x l2 -> time_of x <= time_of m).
Proof.
  intros [|x0 l] m H; [discriminate|]. cbn in H. injection H as <-.
  assert (G : forall l pre x mid, (forall y, In y pre -> time_of y < time_of x) -> (forall y, In y mid -> time_of y <= time_of x) ->
    let m := fold_left (fun best y => if fst (fst best) <? fst (fst y) then y else best) l x in
    exists l1 l2, pre ++ x :: mid ++ l = l1 ++ m :: l2 /\ (forall y, In y l1 -> time_of y < time_of m) /\ (forall y, In y l2 -> time_of y <= time_of m)).
  { clear. induction l as [|y l IH]; intros pre x mid Hp Hm; cbn [fold_left].
    - exists pre, mid. rewrite app_nil_r. auto.
    - destruct (fst (fst x) <? fst (fst y)) eqn:E.
      + destruct (IH (pre ++ x :: mid) y []) as (l1 & l2 & Eq & A & B).
        * unfold time_of in *. intros z Hz. apply in_app_or in Hz. destruct Hz as [Hz|[<-|Hz]];
            [specialize (Hp z Hz)|idtac|specialize (Hm z Hz)]; lia.
        * intros z [].
        * exists l1, l2. split; [|auto]. rewrite <- Eq. cbn. rewrite <- app_assoc. reflexivity.
      + destruct (IH pre x (mid ++ [y])) as (l1 & l2 & Eq & A & B).
        * exact Hp.
        * unfold time_of in *. intros z Hz. apply in_app_or in Hz. destruct Hz as [Hz|[<-|[]]]; [auto|lia].
        * exists l1, l2. split; [|auto]. rewrite <- Eq, <- app_assoc. reflexivity. }
  destruct (G l [] x0 []) as (l1 & l2 & A & B & C); [intros ? []|intros ? []|]. exists l1, l2. auto.
Qed.

Lemma cand_split : forall t dv places l1 m l2, flat_map (cand t dv) places = l1 ++ m :: l2 ->
  exists q1 pl q2, places = q1 ++ pl :: q2 /\ cand t dv pl = [m] /\ flat_map (cand t dv) q1 = l1 /\ flat_map (cand t dv) q2 = l2.
Proof.
  intros t dv. induction places as [|pl l IH]; intros l1 m l2 H; cbn [flat_map] in H; [destruct l1; discriminate|].
  assert (C : cand t dv pl = [] \/ exists x, cand t dv pl = [x]).
  { unfold cand. destruct (above t (dv pl)); [|auto]. destruct (next_at t (dv pl)); eauto. }
  destruct C as [C|[x C]]; rewrite C in H; cbn [app] in H.
  - destruct (IH _ _ _ H) as (q1 & p & q2 & -> & A & B & D). exists (pl :: q1), p, q2. cbn. rewrite C. auto.
  - destruct l1 as [|y l1]; injection H as -> H.
    + exists [], pl, l. auto.
    + destruct (IH _ _ _ H) as (q1 & p & q2 & -> & A & B & D). exists (pl :: q1), p, q2. cbn. rewrite C, B. auto.
Qed.
End Elev.

(** What an update must do, over the satellites in launch-grid order: follow the usable satellite with the latest end
    (the first of equals) and wake up at that end; give up exactly when none is usable. *)
Definition picks_longest (above : Z -> nat -> bool) (next_at : Z -> nat -> option Z) (addr : nat -> sat_address)
  (sats : list nat) (t : Z) (r : result (sat_address * Z)) : Prop :=
  (r = Abort /\ forall d b, In d sats -> ~ usable_until above next_at t d b) \/
  (exists before d after e, sats = before ++ d :: after /\ r = Ok (addr d, e) /\ usable_until above next_at t d e /\
     (forall x b, In x before -> usable_until above next_at t x b -> b < e) /\
     (forall x b, In x after -> usable_until above next_at t x b -> b <= e)).

(** Claimed for every constellation (with visibilities shorter than half an orbit, as asserted). *)
Definition elevation_tracker_claim : Prop := forall h id P S adds c addrs addr above next_at half_period t,
  run_adds h (con_new id P S) adds = Ok (c, addrs) ->
  (forall d b, In d (map dev_of adds) -> usable_until above next_at t d b -> b - t < half_period d) ->
  picks_longest above next_at addr (listing P S adds) t (elevation_update c addr above next_at half_period t).

(** False when a place is empty. *)
Theorem elevation_tracker_refuted : ~ elevation_tracker_claim.
Proof.
  intros H. destruct (run_adds LittleEndian (con_new 1 1 2) [(0, 1, 7)]%nat) as [[c l]| | |] eqn:R; try discriminate R.
  specialize (H _ _ _ _ _ _ _ (fun d => sat_make LittleEndian 1 0 (Z.of_nat d)) (fun _ _ => true) (fun _ _ => Some 5) (fun _ => 100) 0 R).
  assert (U : elevation_update c (fun d => sat_make LittleEndian 1 0 (Z.of_nat d)) (fun _ _ => true) (fun _ _ => Some 5) (fun _ => 100) 0 = UB)
    by (vm_compute in R; injection R as <- <-; vm_compute; reflexivity).
  rewrite U in H. destruct H as [[H _]|(b & d & a & e & _ & H & _)]; [|discriminate H|discriminate H].
  intros d b _ [_ [= <-]]. lia.
Qed.
Print Assumptions elevation_tracker_refuted.

Lemma all_places_slots : forall c, all_places c = slots (con_planes c) (con_plane_size c).
Proof. reflexivity. Qed.

(** True of every complete constellation.  If a place is empty the update is undefined, unless an earlier satellite
    violates the half orbit assertion. *)
Theorem elevation_tracker_partial : forall h id P S adds c addrs addr above next_at half_period t,
  run_adds h (con_new id P S) adds = Ok (c, addrs) ->
  (length adds = P * S)%nat ->
  (forall d b, In d (map dev_of adds) -> usable_until above next_at t d b -> b - t < half_period d) ->
  picks_longest above next_at addr (listing P S adds) t (elevation_update c addr above next_at half_period t).
Proof.
  intros h id P S adds c addrs addr above next_at half_period t R Full Half.
  destruct (run_adds_wf _ _ _ _ _ (new_wf id P S) R) as (W & _ & EP & ES & En). cbn in EP, ES, En.
  destruct (run_adds_admissible _ _ _ _ _ (new_wf id P S) R) as [Ad _]. cbn in Ad.
  pose (dv := fun pl : nat * nat => match added_at adds (fst pl) (snd pl) with Some d => d | None => O end).
  assert (All : forall pl, In pl (slots P S) -> added_at adds (fst pl) (snd pl) = Some (dv pl)).
  { (* as many satellites as places, all places different *)
    assert (Inc : incl (slots P S) (map slot_of adds)).
    { apply NoDup_length_incl; [exact (proj1 Ad)| |].
      - rewrite map_length, slots_length. lia.
      - intros pl H. apply in_map_iff in H. destruct H as (x & <- & Hx). destruct Ad as [_ F]. rewrite Forall_forall in F.
        specialize (F x Hx). destruct (slot_of x) as [p i]. apply in_slots. exact F. }
    intros [p i] H. unfold dv. cbn [fst snd]. apply Inc in H. apply in_map_iff in H.
    destruct H as ([[p' i'] d] & E & Hx). unfold slot_of in E. cbn in E. injection E as -> ->.
    rewrite (added_at_In adds p i d (proj1 Ad) Hx). reflexivity. }
  assert (Get : forall pl, In pl (slots P S) -> get_satellite c (fst pl) (snd pl) = Ok (Some (dv pl))).
  { intros [p i] H. rewrite <- (All (p, i) H). cbn [fst snd]. apply in_slots in H.
    apply (lookup_bounds_partial h id P S adds c addrs p i R). exact H. }
  assert (Ls : listing P S adds = map dv (slots P S)).
  { unfold listing. clear - All. induction (slots P S) as [|pl l IH]; cbn [flat_map map]; [reflexivity|].
    rewrite (All pl (or_introl eq_refl)), IH by (intros; apply All; right; assumption). reflexivity. }
  assert (InD : forall pl, In pl (slots P S) -> In (dv pl) (map dev_of adds)).
  { intros pl H. pose proof (added_at_inv _ _ _ _ (All pl H)) as X. change (dv pl) with (dev_of (fst pl, snd pl, dv pl)).
    apply in_map. exact X. }
  assert (Vis : visible_sats c above next_at half_period t (all_places c) = Ok (flat_map (cand above next_at t dv) (slots P S))).
  { rewrite all_places_slots, EP, ES. apply visible_sats_ok; [exact Get|]. intros pl b H U. apply Half; auto. }
  unfold elevation_update. rewrite Vis. cbn [rbind]. rewrite Ls.
  destruct (max_by_time (flat_map (cand above next_at t dv) (slots P S))) as [[[v p] i]|] eqn:M.
  - right. destruct (max_by_time_spec _ _ M) as (l1 & l2 & E & B & C).
    destruct (cand_split _ _ _ _ _ _ _ _ E) as (q1 & pl & q2 & Es & Cp & E1 & E2).
    assert (Ip : In pl (slots P S)) by (rewrite Es; apply in_or_app; right; left; reflexivity).
    unfold cand in Cp. destruct (above t (dv pl)) eqn:Ab; [|discriminate].
    destruct (next_at t (dv pl)) as [e|] eqn:Nx; [|discriminate]. injection Cp as Ev Ep Ei.
    pose proof (Get pl Ip) as Gp. rewrite Ep, Ei in Gp. rewrite Gp. cbn [rbind].
    exists (map dv q1), (dv pl), (map dv q2), e. split; [rewrite Es, map_app; reflexivity|].
    split; [do 2 f_equal; lia|]. split; [split; assumption|].
    assert (Cn : forall q x b, In x (map dv q) -> usable_until above next_at t x b ->
       exists y, In y (flat_map (cand above next_at t dv) q) /\ time_of y = b - t).
    { intros q x b Hx [U1 U2]. apply in_map_iff in Hx. destruct Hx as (pl' & <- & Hp).
      exists (b - t, fst pl', snd pl'). split; [|reflexivity]. apply in_flat_map. exists pl'. split; [exact Hp|].
      unfold cand. rewrite U1, U2. left; reflexivity. }
    split; intros x b Hx U; destruct (Cn _ _ _ Hx U) as (y & Hy & Ty).
    + rewrite E1 in Hy. apply B in Hy. unfold time_of in *. cbn in Hy. lia.
    + rewrite E2 in Hy. apply C in Hy. unfold time_of in *. cbn in Hy. lia.
  - left. split; [reflexivity|]. intros d b Hd [U1 U2]. apply in_map_iff in Hd. destruct Hd as (pl & <- & Hp).
    destruct (flat_map (cand above next_at t dv) (slots P S)) eqn:F; [|discriminate].
    assert (X : In (b - t, fst pl, snd pl) (flat_map (cand above next_at t dv) (slots P S))).
    { apply in_flat_map. exists pl. split; [exact Hp|]. unfold cand. rewrite U1, U2. left; reflexivity. }
    rewrite F in X. exact X.
Qed.
Print Assumptions elevation_tracker_partial.

Theorem elevation_tracker_incomplete_partial : forall h id P S adds c addrs addr above next_at half_period t,
  run_adds h (con_new id P S) adds = Ok (c, addrs) -> (length adds < P * S)%nat ->
  elevation_update c addr above next_at half_period t = UB \/ elevation_update c addr above next_at half_period t = Assert.
Proof.
  intros h id P S adds c addrs addr above next_at half_period t R Lt.
  destruct (run_adds_wf _ _ _ _ _ (new_wf id P S) R) as (W & _ & EP & ES & En). cbn in EP, ES, En.
  assert (Hole : exists pl, In pl (slots P S) /\ added_at adds (fst pl) (snd pl) = None).
  { destruct (Forall_Exists_dec (fun pl => added_at adds (fst pl) (snd pl) <> None)) with (l := slots P S) as [F|E].
    - intros x. destruct (added_at adds (fst x) (snd x)); [left; discriminate|right; congruence].
    - exfalso. assert (X : (length (slots P S) <= length (map slot_of adds))%nat).
      { apply NoDup_incl_length; [apply NoDup_slots|]. intros pl H. rewrite Forall_forall in F. specialize (F pl H).
        destruct (added_at adds (fst pl) (snd pl)) as [d|] eqn:A; [|congruence]. apply added_at_inv in A.
        apply in_map_iff. exists (fst pl, snd pl, d). split; [destruct pl; reflexivity|exact A]. }
      rewrite slots_length, map_length in X. lia.
    - apply Exists_exists in E. destruct E as (pl & A & B). exists pl. split; [exact A|].
      destruct (added_at adds (fst pl) (snd pl)); [exfalso; apply B; discriminate|reflexivity]. }
  assert (G : forall places, (forall pl, In pl places -> In pl (slots P S)) ->
    (exists pl, In pl places /\ added_at adds (fst pl) (snd pl) = None) ->
    visible_sats c above next_at half_period t places = UB \/ visible_sats c above next_at half_period t places = Assert).
  { induction places as [|[p i] l IH]; intros Sub (pl & Hin & Hn); [contradiction|]. cbn [visible_sats].
    pose proof (Sub (p, i) (or_introl eq_refl)) as S1. apply in_slots in S1.
    destruct (lookup_bounds_partial h id P S adds c addrs p i R) as (L & _). rewrite (L S1). cbn [rbind].
    destruct (added_at adds p i) as [d|] eqn:Ad; [|auto].
    assert (Rec : visible_sats c above next_at half_period t l = UB \/ visible_sats c above next_at half_period t l = Assert).
    { apply IH; [intros; apply Sub; right; assumption|]. destruct Hin as [<-|Hin]; [cbn in Hn; congruence|eauto]. }
    destruct (above t d); [|exact Rec]. destruct (next_at t d) as [b|]; [|exact Rec].
    destruct (b - t <? half_period d); cbn; [|auto]. destruct Rec as [-> | ->]; auto. }
  unfold elevation_update. rewrite all_places_slots, EP, ES.
  destruct (G (slots P S) (fun _ H => H) Hole) as [-> | ->]; auto.
Qed.
Print Assumptions elevation_tracker_incomplete_partial.

(** From update to update: each runs when the visibility found by the one before ends. *)
Theorem elevation_tracker_chain : forall h id P S adds c addrs addr above next_at half_period n t0 log tn,
  run_adds h (con_new id P S) adds = Ok (c, addrs) -> (length adds = P * S)%nat ->
  (forall t d b, In d (map dev_of adds) -> usable_until above next_at t d b -> b - t < half_period d) ->
  elevation_run c addr above next_at half_period n t0 = Ok (log, tn) ->
  forall k t a, nth_error log k = Some (t, a) ->
    exists d, In d (map dev_of adds) /\ a = addr d /\
      usable_until above next_at t d (match nth_error log (Datatypes.S k) with Some (t', _) => t' | None => tn end) /\
      (forall x b, In x (map dev_of adds) -> usable_until above next_at t x b ->
         b <= match nth_error log (Datatypes.S k) with Some (t', _) => t' | None => tn end).
Proof.
  intros h id P S adds c addrs addr above next_at half_period n t0 log tn R Full Half.
  destruct (size_and_listing_agree h id P S adds c addrs R) as (_ & _ & Ls & Pm). rewrite Ls in Pm.
  assert (Hd : forall n t l e, elevation_run c addr above next_at half_period n t = Ok (l, e) ->
     match l with [] => e = t | (t', _) :: _ => t' = t end).
  { clear. intros [|n] t l e H; cbn in H; [injection H as <- <-; reflexivity|].
    destruct (elevation_update c addr above next_at half_period t) as [[a t']| | |]; try discriminate. cbn in H.
    destruct (elevation_run c addr above next_at half_period n t') as [[l' e']| | |]; try discriminate. cbn in H.
    injection H as <- <-. reflexivity. }
  revert t0 log tn. induction n as [|n IH]; intros t0 log tn H k t a N; cbn in H.
  - injection H as <- <-. destruct k; discriminate.
  - destruct (elevation_update c addr above next_at half_period t0) as [[a0 t1]| | |] eqn:U; try discriminate. cbn in H.
    destruct (elevation_run c addr above next_at half_period n t1) as [[l e]| | |] eqn:E; try discriminate. cbn in H.
    injection H as <- <-. destruct k as [|k].
    + cbn in N. injection N as <- <-. cbn [nth_error].
      assert (X : match match l with [] => None | x :: _ => Some x end with Some (t', _) => t' | None => e end = t1).
      { specialize (Hd _ _ _ _ E). destruct l as [|[t' x] l]; exact Hd. }
      replace (nth_error l 0) with (match l with [] => None | x :: _ => Some x end) by (destruct l; reflexivity). rewrite X.
      destruct (elevation_tracker_partial h id P S adds c addrs addr above next_at half_period t0 R Full (Half t0)) as
        [[Q _]|(bf & d & af & e' & Ls' & Q & Us & B & A)]; rewrite U in Q; [discriminate|]. injection Q as -> ->.
      exists d. split. { rewrite <- Pm, Ls'. apply in_or_app. right; left; reflexivity. }
      split; [reflexivity|]. split; [exact Us|]. intros x b Hx Ux. rewrite <- Pm, Ls' in Hx. apply in_app_or in Hx.
      destruct Hx as [Hx|[<-|Hx]].
      * apply Z.lt_le_incl, (B x b Hx Ux).
      * destruct Us as [_ U1], Ux as [_ U2]. rewrite U1 in U2. injection U2 as ->. lia.
      * exact (A x b Hx Ux).
    + apply (IH t1 l e E k t a N).
Qed.
Print Assumptions elevation_tracker_chain.

Example elevation_case :
  match run_adds LittleEndian (con_new 1 2 2) [(0, 0, 7); (0, 1, 8); (1, 0, 9); (1, 1, 10)]%nat with
  | Ok (c, _) =>
      elevation_run c (fun d => sat_make LittleEndian 1 0 (Z.of_nat d)) (fun t d => negb (d =? 10)%nat)
        (fun t d => Some (t + Z.of_nat (match d with 7 => 3 | 8 => 9 | 9 => 9 | _ => 50 end)%nat)) (fun _ => 100) 2 0
      = Ok ([(0, sat_make LittleEndian 1 0 8); (9, sat_make LittleEndian 1 0 8)], 18)
  | _ => False
  end.
Proof. vm_compute. reflexivity. Qed.
