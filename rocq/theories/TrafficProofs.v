(** Lemmas about the on/off application. *)
From Coq Require Import ZArith QArith Qround List Lia Bool.
From Verif Require Import Base HelpersModel TrafficModel TrafficSpec.
Import ListNotations.
Open Scope Z_scope.

(** * Conversions *)

Lemma qratio_floor : forall a b d, 0 < d -> Qfloor (inject_Z a / inject_Z d * inject_Z b) = a * b / d.
Proof.
  intros a b d H. destruct d as [|d|d]; try lia. unfold Qdiv, Qmult, Qinv, inject_Z, Qfloor. cbn [Qnum Qden].
  rewrite Z.mul_1_r. rewrite !Pos.mul_1_l, Pos.mul_1_r. reflexivity.
Qed.
Lemma qratio_round : forall a b d, 0 < d -> Qfloor (inject_Z a / inject_Z d * inject_Z b + (1 # 2)) = (2 * (a * b) + d) / (2 * d).
Proof.
  intros a b d H. destruct d as [|d|d]; try lia. unfold Qdiv, Qmult, Qplus, Qinv, inject_Z, Qfloor. cbn [Qnum Qden].
  rewrite !Z.mul_1_r, !Pos.mul_1_l, Pos.mul_1_r. f_equal; lia.
Qed.

Section Conversions.
Context (ns_of : Q -> Z) (R : reads ns_of).
Lemma ns_ratio : forall a d, 0 <= a -> 0 < d ->
  a * 10 ^ 9 - d < d * ns_of (inject_Z a / inject_Z d) /\ 2 * (d * ns_of (inject_Z a / inject_Z d)) <= 2 * (a * 10 ^ 9) + d /\
  0 <= ns_of (inject_Z a / inject_Z d).
Proof.
  intros a d Ha Hd. destruct R as [E|E]; rewrite E.
  - rewrite qratio_floor by lia. pose proof (Z.div_mod (a * 10 ^ 9) d ltac:(lia)). pose proof (Z.mod_pos_bound (a * 10 ^ 9) d Hd).
    pose proof (Z.div_pos (a * 10 ^ 9) d ltac:(lia) Hd). repeat split; lia.
  - rewrite qratio_round by lia. pose proof (Z.div_mod (2 * (a * 10 ^ 9) + d) (2 * d) ltac:(lia)).
    pose proof (Z.mod_pos_bound (2 * (a * 10 ^ 9) + d) (2 * d) ltac:(lia)).
    pose proof (Z.div_pos (2 * (a * 10 ^ 9) + d) (2 * d) ltac:(lia) ltac:(lia)).
    set (x := (2 * (a * 10 ^ 9) + d) / (2 * d)) in *. replace (2 * d * x) with (2 * (d * x)) in H by ring. repeat split; lia.
Qed.
Lemma ns_int : forall a, ns_of (inject_Z a) = a * 10 ^ 9.
Proof.
  intros a. assert (X : forall q, Qfloor (inject_Z a * inject_Z q) = a * q).
  { intros q. rewrite <- inject_Z_mult. apply Qfloor_Z. }
  destruct R as [E|E]; rewrite E; [apply X|].
  rewrite <- inject_Z_mult. unfold Qfloor, Qplus, inject_Z. cbn [Qnum Qden]. rewrite Z.mul_1_r. symmetry. apply Z.div_unique with 1; lia.
Qed.
Lemma ns_nonneg : forall q, (0 <= q)%Q -> 0 <= ns_of q.
Proof.
  intros q H. assert (X : (0 <= q * inject_Z (10 ^ 9))%Q) by (apply Qmult_le_0_compat; [exact H|discriminate]).
  destruct R as [E|E]; rewrite E; change 0 with (Qfloor 0); apply Qfloor_resp_le; [exact X|].
  setoid_replace 0%Q with (0 + 0)%Q by ring. apply Qplus_le_compat; [exact X|discriminate].
Qed.
End Conversions.

(** * Poisson traffic *)

Section Poisson.
Context (ns_of : Q -> Z) (bits_of : Z -> Z -> Z) (R : reads ns_of) (B : counts bits_of).
Context (packet max start : Z) (draws : nat -> Q).
Hypothesis Hp : 0 < packet < 2 ^ 29.
Hypothesis Hm : 0 <= max /\ max + packet <= 2 ^ 64.
Hypothesis Hd : forall i, (0 <= draws i)%Q.
Let c := poisson_cfg packet max draws.
Let gaps := fun i => ns_of (draws i).

Lemma on_zero : ns_of (poisson_t_on packet) = 0.
Proof.
  unfold poisson_t_on. destruct (ns_ratio ns_of R (packet * 8) (2 ^ 64 - 1) ltac:(lia) ltac:(lia)) as (_ & U & L). lia.
Qed.
Lemma u32_packet : u32 packet = packet.
Proof. unfold u32. apply Z.mod_small. lia. Qed.
Lemma bits_zero : forall r, 0 <= r -> bits_of 0 r = 0.
Proof. intros r Hr. destruct (B 0 r ltac:(lia) Hr) as [L [_ U]]. cbn in U. lia. Qed.

(** The application waits for the [k]-th packet's time, with its events numbered from [u]. *)
Definition wait_at (k : nat) (s : onoff) : Prop := exists now last u ons,
  s = mkApp now (u64 (Z.of_nat k * packet)) 0 last None (Some (true, leaves gaps start k, u)) (Datatypes.S u) ons (Datatypes.S k) (departures gaps start k) /\
  now + gaps k = leaves gaps start k /\ (k <> 0%nat -> now = leaves gaps start (k - 1)).
Definition open_at (k : nat) : Prop := max = 0 \/ Z.of_nat k * packet < max.

Lemma leaves_first : forall k, departures gaps start (Datatypes.S k) = departures gaps start k ++ [leaves gaps start k].
Proof. intros k. unfold departures. rewrite seq_S, map_app. reflexivity. Qed.

Lemma open_test : forall k, (k <> 0%nat -> open_at (k - 1)) -> ((max =? 0) || (u64 (Z.of_nat k * packet) <? max) = true <-> open_at k).
Proof.
  intros k Hk. unfold open_at in *. destruct (Z.eqb_spec max 0) as [->|N]; [cbn; tauto|]. cbn [orb].
  assert (S : 0 <= Z.of_nat k * packet < 2 ^ 64).
  { split; [nia|]. destruct k as [|k]; [lia|]. destruct (Hk ltac:(lia)) as [X|X]; [lia|]. replace (Datatypes.S k - 1)%nat with k in X by lia. nia. }
  unfold u64. rewrite Z.mod_small by exact S. rewrite Z.ltb_lt. split; [intros; right; lia|intros [X|X]; lia].
Qed.

Lemma poisson_begin : wait_at 0 (start_application ns_of bits_of c start).
Proof.
  exists start, 0, O, O. unfold start_application, cancel_events, schedule_start. cbn [oo_send oo_now oo_tot oo_residual oo_last oo_uid oo_ons oo_offs oo_sent].
  repeat split. intros X. contradiction.
Qed.

(** The three states of a cycle. *)
Definition due_at (k : nat) (s : onoff) : Prop := exists u u' w ons,
  s = mkApp (leaves gaps start k) (u64 (Z.of_nat k * packet)) 0 (leaves gaps start k) (Some (leaves gaps start k, u))
    (Some (false, leaves gaps start k, u')) w ons (Datatypes.S k) (departures gaps start k) /\ (u < u' < w)%nat.
Definition gone_at (k : nat) (s : onoff) : Prop := exists u u' w ons,
  s = mkApp (leaves gaps start k) (u64 (Z.of_nat (Datatypes.S k) * packet)) 0 (leaves gaps start k) (Some (leaves gaps start k, u'))
    (Some (false, leaves gaps start k, u)) w ons (Datatypes.S k) (departures gaps start (Datatypes.S k)) /\ (u < u' < w)%nat.
Definition done_at (k : nat) (s : onoff) : Prop :=
  oo_send s = None /\ oo_toggle s = None /\ oo_sent s = departures gaps start (Datatypes.S k) /\ oo_now s = leaves gaps start k /\ oo_offs s = Datatypes.S k.

Lemma packet_bits : u32 (u32 (packet * 8) - 0) = packet * 8 /\ u32 (packet * 8) = packet * 8.
Proof. assert (X : u32 (packet * 8) = packet * 8) by (unfold u32; apply Z.mod_small; lia). rewrite X, Z.sub_0_r, X. tauto. Qed.
Lemma tx_zero : ns_of (inject_Z (u32 (u32 (packet * 8) - 0)) / inject_Z (2 ^ 64 - 1)) = 0.
Proof. rewrite (proj1 packet_bits). exact on_zero. Qed.

Lemma wait_step : forall k s, wait_at k s -> (k <> 0%nat -> open_at (k - 1)) -> open_at k ->
  exists s', app_step ns_of bits_of c s = Ok (Some s') /\ due_at k s'.
Proof.
  intros k s (now & last & u & ons & -> & E & _) Hk Ho. pose proof (proj2 (open_test k Hk) Ho) as T.
  unfold app_step, run_toggle, start_sending, schedule_next. cbn [oo_send oo_toggle oo_now oo_tot oo_residual oo_last oo_uid oo_ons oo_offs oo_sent].
  replace (ao_max c) with max by reflexivity. replace (ao_packet c) with packet by (symmetry; apply u32_packet).
  replace (ao_rate c) with (2 ^ 64 - 1) by reflexivity. rewrite T, tx_zero, (proj2 packet_bits).
  replace (0 <=? packet * 8) with true by (symmetry; apply Z.leb_le; lia). cbn [abort_unless rbind]. eexists. split; [reflexivity|].
  unfold schedule_stop. cbn [oo_send oo_toggle oo_now oo_tot oo_residual oo_last oo_uid oo_ons oo_offs oo_sent].
  replace (ao_on c ons) with (poisson_t_on packet) by (unfold c; cbn; rewrite u32_packet; reflexivity). rewrite on_zero, Z.add_0_r.
  exists (Datatypes.S u), (Datatypes.S (Datatypes.S u)), (Datatypes.S (Datatypes.S (Datatypes.S u))), (Datatypes.S ons). split; [reflexivity|lia].
Qed.

Lemma due_step : forall k s, due_at k s -> open_at k ->
  exists s', app_step ns_of bits_of c s = Ok (Some s') /\ (open_at (Datatypes.S k) -> gone_at k s') /\ (~ open_at (Datatypes.S k) -> done_at k s').
Proof.
  intros k s (u & u' & w & ons & -> & L) Ho.
  assert (T := open_test (Datatypes.S k)). replace (Datatypes.S k - 1)%nat with k in T by lia. specialize (T (fun _ => Ho)).
  assert (W : u64 (u64 (Z.of_nat k * packet) + packet) = u64 (Z.of_nat (Datatypes.S k) * packet)).
  { unfold u64. rewrite Zplus_mod_idemp_l. f_equal. lia. }
  unfold app_step, run_send, send_packet, schedule_next. cbn [oo_send oo_toggle oo_now oo_tot oo_residual oo_last oo_uid oo_ons oo_offs oo_sent].
  unfold before. rewrite Z.ltb_irrefl, Z.eqb_refl. replace (u <? u')%nat with true by (symmetry; apply Nat.ltb_lt; lia). cbn [orb andb].
  replace (ao_max c) with max by reflexivity. replace (ao_packet c) with packet by (symmetry; apply u32_packet).
  replace (ao_rate c) with (2 ^ 64 - 1) by reflexivity. rewrite W.
  destruct ((max =? 0) || (u64 (Z.of_nat (Datatypes.S k) * packet) <? max)) eqn:D.
  - rewrite tx_zero, (proj2 packet_bits). replace (0 <=? packet * 8) with true by (symmetry; apply Z.leb_le; lia). cbn [abort_unless rbind]. eexists. split; [reflexivity|].
    split; [intros _|intros N; exfalso; apply N, T; reflexivity].
    exists u', w, (Datatypes.S w), ons. rewrite leaves_first, Z.add_0_r. split; [reflexivity|lia].
  - cbn [rbind]. eexists. split; [reflexivity|]. split; [intros N; apply T in N; discriminate|intros _].
    unfold done_at, cancel_events. cbn [oo_send oo_toggle oo_now oo_offs oo_sent]. rewrite leaves_first. tauto.
Qed.

Lemma gone_step : forall k s, gone_at k s -> exists s', app_step ns_of bits_of c s = Ok (Some s') /\ wait_at (Datatypes.S k) s'.
Proof.
  intros k s (u & u' & w & ons & -> & L).
  unfold app_step, run_toggle, stop_sending. cbn [oo_send oo_toggle oo_now oo_tot oo_residual oo_last oo_uid oo_ons oo_offs oo_sent].
  unfold before. rewrite Z.ltb_irrefl, Z.eqb_refl. replace (u' <? u)%nat with false by (symmetry; apply Nat.ltb_ge; lia). cbn [orb andb rbind].
  eexists. split; [reflexivity|]. unfold cancel_events, schedule_start. cbn [oo_send oo_toggle oo_now oo_tot oo_residual oo_last oo_uid oo_ons oo_offs oo_sent].
  rewrite Z.sub_diag, bits_zero by (unfold c; cbn; lia). change (u32 (0 + 0)) with 0.
  exists (leaves gaps start k), (leaves gaps start k), w, ons. split; [reflexivity|]. split; [reflexivity|].
  intros _. replace (Datatypes.S k - 1)%nat with k by lia. reflexivity.
Qed.

Lemma run_plus : forall m n s s', app_run ns_of bits_of c m s = Ok s' -> app_run ns_of bits_of c (m + n) s = app_run ns_of bits_of c n s'.
Proof.
  induction m as [|m IH]; intros n s s' E; cbn in *; [injection E as ->; reflexivity|].
  destruct (app_step ns_of bits_of c s) as [[s1|]| | |] eqn:D; cbn in *; try discriminate; [apply IH, E|].
  injection E as ->. destruct n; cbn; [reflexivity|]. rewrite D. reflexivity.
Qed.
Lemma run_one : forall s s', app_step ns_of bits_of c s = Ok (Some s') -> app_run ns_of bits_of c 1 s = Ok s'.
Proof. intros s s' E. cbn. rewrite E. reflexivity. Qed.
Lemma run_done : forall k s n, done_at k s -> app_run ns_of bits_of c n s = Ok s.
Proof. intros k s n (A & A' & _). destruct n; cbn; [reflexivity|]. unfold app_step. rewrite A, A'. reflexivity. Qed.

(** All states after [n] events. *)
Definition phase (n : nat) (s : onoff) : Prop :=
  (exists k, n = (3 * k)%nat /\ wait_at k s /\ open_at k) \/
  (exists k, n = (3 * k + 1)%nat /\ due_at k s /\ open_at k) \/
  (exists k, n = (3 * k + 2)%nat /\ gone_at k s /\ open_at (Datatypes.S k)) \/
  (exists k, (3 * k + 2 <= n)%nat /\ done_at k s /\ open_at k /\ ~ open_at (Datatypes.S k)).

Lemma open_down : forall k, open_at (Datatypes.S k) -> open_at k.
Proof. unfold open_at. intros k [X|X]; [tauto|right; nia]. Qed.
Lemma open_dec : forall k, open_at k \/ ~ open_at k.
Proof. intros k. unfold open_at. lia. Qed.

Lemma phase_run : forall n, exists s, app_run ns_of bits_of c n (start_application ns_of bits_of c start) = Ok s /\ phase n s.
Proof.
  induction n as [|n (s & E & P)].
  - eexists. split; [reflexivity|]. left. exists O. split; [reflexivity|]. split; [apply poisson_begin|]. unfold open_at. lia.
  - replace (Datatypes.S n) with (n + 1)%nat by lia. rewrite (run_plus _ _ _ _ E).
    destruct P as [(k & Hn & W & O)|[(k & Hn & W & O)|[(k & Hn & W & O)|(k & Hn & W & O & N)]]].
    + destruct (wait_step k s W) as (s' & F & D); [intros Hk; apply open_down; replace (Datatypes.S (k - 1)) with k by lia; exact O|exact O|].
      exists s'. split; [apply run_one, F|]. right; left. exists k. split; [lia|tauto].
    + destruct (due_step k s W O) as (s' & F & D & D'). exists s'. split; [apply run_one, F|]. right; right.
      destruct (open_dec (Datatypes.S k)) as [X|X]; [left; exists k|right; exists k]; (split; [lia|tauto]).
    + destruct (gone_step k s W) as (s' & F & D). exists s'. split; [apply run_one, F|]. left. exists (Datatypes.S k). split; [lia|tauto].
    + exists s. split; [apply (run_done k _ _ W)|]. right; right; right. exists k. split; [lia|tauto].
Qed.
End Poisson.

(** * Constant traffic *)

Lemma spaced_app : forall R l from t, spaced R from (l ++ [t]) <-> spaced R from l /\ R (last l from) t.
Proof.
  intros R. induction l as [|a l IH]; intros from t; cbn [app spaced].
  - cbn. tauto.
  - rewrite IH. replace (last (a :: l) from) with (last l a); [tauto|]. destruct l as [|b l]; [reflexivity|].
    cbn [last]. clear. revert b. induction l as [|x l IH]; intros b; [reflexivity|]. cbn [last] in *. apply IH.
Qed.
Lemma last_snoc : forall (l : list Z) t from, last (l ++ [t]) from = t.
Proof. intros. apply last_last. Qed.

Section Constant.
Context (ns_of : Q -> Z) (bits_of : Z -> Z -> Z) (R : reads ns_of) (B : counts bits_of).
Context (p r frames start : Z).
Hypothesis Hp : 0 < p /\ p * 8 < 2 ^ 32.
Hypothesis Hr : 0 < r <= 10 ^ 9.
Hypothesis Hf : 0 <= frames /\ p * frames < 2 ^ 64.
Let c := mkOnOff p r (p * frames) (fun _ => inject_Z 1000) (fun _ => 0%Q).
Let on := 10 ^ 12.

(** The gap between two packets, in ns: the packet's bits at the rate less a ns, up to two bits for every interruption. *)
Definition near_gap (t t' : Z) : Prop :=
  8 * p * 10 ^ 9 < r * (t' - t + 1) /\ r * (t' - t - 1) <= (8 * p + 2 * ((t' - t) / on + 1)) * 10 ^ 9.

Definition more (s : onoff) : Prop := frames = 0 \/ oo_tot s = p * Z.of_nat (length (oo_sent s)) /\ Z.of_nat (length (oo_sent s)) < frames.
(** [m] interruptions since the last packet, up to [L], with [rho] bits kept. *)
Definition kept (m : Z) (t0 L rho : Z) : Prop :=
  0 <= m /\ 0 <= rho <= 8 * p /\ t0 <= L /\ rho * 10 ^ 9 <= r * (L - t0) <= (rho + 2 * m) * 10 ^ 9 /\ (m = 0 -> L = t0) /\ (0 < m -> (m - 1) * on <= L - t0).
Definition sending (m : Z) (s : onoff) : Prop := exists ts u tt u',
  oo_send s = Some (ts, u) /\ oo_toggle s = Some (false, tt, u') /\
  kept m (last (oo_sent s) start) (oo_last s) (oo_residual s) /\
  ts = oo_last s + ns_of (inject_Z (8 * p - oo_residual s) / inject_Z r) /\ oo_last s <= tt /\ (0 < m -> tt = oo_last s + on) /\ more s.
Definition paused (m : Z) (s : onoff) : Prop := exists u,
  oo_send s = None /\ oo_toggle s = Some (true, oo_now s, u) /\
  kept m (last (oo_sent s) start) (oo_now s) (oo_residual s) /\ more s.
Definition over (s : onoff) : Prop := oo_send s = None /\ oo_toggle s = None /\ 0 < frames /\ Z.of_nat (length (oo_sent s)) = frames.

Lemma begin_paused : paused 0 (start_application ns_of bits_of c start) /\ oo_sent (start_application ns_of bits_of c start) = [].
Proof.
  unfold start_application, cancel_events, schedule_start. cbn [oo_send oo_now oo_tot oo_residual oo_last oo_uid oo_ons oo_offs oo_sent].
  split; [|reflexivity]. exists O. cbn [oo_send oo_toggle oo_now oo_residual oo_sent last].
  replace (ns_of (ao_off c 0)) with 0 by (symmetry; apply (ns_int ns_of R 0)). rewrite Z.add_0_r.
  split; [reflexivity|]. split; [reflexivity|]. split; [unfold kept; lia|]. unfold more. cbn. lia.
Qed.

Lemma more_test : forall tot n, (frames = 0 \/ tot = p * n) -> 0 <= n -> ((p * frames =? 0) || (tot <? p * frames) = true <-> frames = 0 \/ n < frames).
Proof.
  intros tot n Ht Hn. destruct (Z.eqb_spec (p * frames) 0) as [E|E]; cbn [orb].
  - split; [intros _; left; nia|reflexivity].
  - destruct Ht as [Ht|Ht]; [subst; lia|]. rewrite Z.ltb_lt, Ht. split; [intros; right; nia|intros [X|X]; nia].
Qed.

Lemma bits_left : forall rho, 0 <= rho <= 8 * p -> u32 (p * 8) = p * 8 /\ u32 (u32 (p * 8) - rho) = 8 * p - rho.
Proof. intros rho H. assert (X : u32 (p * 8) = p * 8) by (unfold u32; apply Z.mod_small; lia). rewrite X. split; [reflexivity|]. unfold u32. rewrite Z.mod_small by lia. lia. Qed.

Lemma paused_step : forall m s, paused m s -> exists s', app_step ns_of bits_of c s = Ok (Some s') /\ sending m s' /\ oo_sent s' = oo_sent s /\ oo_residual s' = oo_residual s.
Proof.
  intros m s (u & E1 & E2 & K & M). unfold app_step, run_toggle, start_sending, schedule_next. rewrite E1, E2. cbn [oo_send oo_toggle oo_now oo_tot oo_residual oo_last oo_uid oo_ons oo_offs oo_sent].
  replace (ao_max c) with (p * frames) by reflexivity. replace (ao_packet c) with p by reflexivity. replace (ao_rate c) with r by reflexivity.
  assert (T := more_test (oo_tot s) (Z.of_nat (length (oo_sent s)))). rewrite (proj2 (T ltac:(unfold more in M; tauto) ltac:(lia)) ltac:(unfold more in M; tauto)).
  destruct K as (K1 & K2 & K3 & K4 & K5 & K6). destruct (bits_left _ K2) as [X Y]. rewrite Y, X.
  replace (oo_residual s <=? p * 8) with true by (symmetry; apply Z.leb_le; lia). cbn [abort_unless rbind].
  eexists. split; [reflexivity|]. unfold schedule_stop. cbn [oo_send oo_toggle oo_now oo_tot oo_residual oo_last oo_uid oo_ons oo_offs oo_sent].
  split; [|split; reflexivity]. unfold sending. cbn [oo_send oo_toggle oo_now oo_tot oo_residual oo_last oo_uid oo_ons oo_offs oo_sent].
  replace (ns_of (ao_on c (oo_ons s))) with on by (symmetry; apply (ns_int ns_of R 1000)).
  do 4 eexists. split; [reflexivity|]. split; [reflexivity|]. split; [unfold kept; tauto|]. split; [reflexivity|].
  split; [unfold on; lia|]. split; [reflexivity|exact M].
Qed.

Lemma sending_step : forall m s, sending m s -> exists s', app_step ns_of bits_of c s = Ok (Some s') /\
  ((exists t, oo_sent s' = oo_sent s ++ [t] /\ near_gap (last (oo_sent s) start) t /\ (sending 0 s' /\ oo_residual s' = 0 \/ over s')) \/
   (oo_sent s' = oo_sent s /\ paused (m + 1) s' /\ oo_residual s <= oo_residual s' /\ (0 < m -> oo_residual s < oo_residual s'))).
Proof.
  intros m s (ts & u & tt & u' & E1 & E2 & K & Ets & L1 & L2 & M).
  destruct K as (K1 & K2 & K3 & K4 & K5 & K6).
  destruct (ns_ratio ns_of R (8 * p - oo_residual s) r ltac:(lia) ltac:(lia)) as (N1 & N2 & N3).
  set (d := ns_of (inject_Z (8 * p - oo_residual s) / inject_Z r)) in *.
  unfold app_step. rewrite E1, E2. destruct (before ts u tt u') eqn:D.
  - (* the packet is sent *)
    assert (Lt : ts <= tt) by (unfold before in D; apply orb_true_iff in D; rewrite andb_true_iff, Z.ltb_lt, Z.eqb_eq in D; lia).
    assert (G : near_gap (last (oo_sent s) start) ts).
    { unfold near_gap. set (t0 := last (oo_sent s) start) in *. rewrite Ets. set (g := oo_last s + d - t0).
      assert (Hg : r * g = r * (oo_last s - t0) + r * d) by (unfold g; ring).
      split; [replace (r * (g + 1)) with (r * g + r) by ring; lia|].
      assert (Mg : m <= g / on + 1).
      { destruct (Z.eq_dec m 0) as [->|Nm]; [assert (0 <= g / on) by (apply Z.div_pos; unfold g, on; lia); lia|].
        assert ((m - 1) <= g / on); [|lia]. apply Z.div_le_lower_bound; [unfold on; lia|]. specialize (K6 ltac:(lia)). unfold g. lia. }
      replace (r * (g - 1)) with (r * g - r) by ring. lia. }
    unfold run_send, send_packet, schedule_next. rewrite E2. cbn [oo_send oo_toggle oo_now oo_tot oo_residual oo_last oo_uid oo_ons oo_offs oo_sent].
    replace (ao_max c) with (p * frames) by reflexivity. replace (ao_packet c) with p by reflexivity. replace (ao_rate c) with r by reflexivity.
    assert (W : frames = 0 \/ u64 (oo_tot s + p) = p * Z.of_nat (length (oo_sent s ++ [ts]))).
    { destruct M as [M|[M M']]; [tauto|]. right. rewrite app_length, Nat2Z.inj_add. cbn [length]. rewrite M. unfold u64. rewrite Z.mod_small; nia. }
    assert (T := more_test _ _ W ltac:(lia)).
    destruct ((p * frames =? 0) || (u64 (oo_tot s + p) <? p * frames)) eqn:C.
    + destruct (bits_left 0 ltac:(lia)) as [X Y]. rewrite Y, X. replace (0 <=? p * 8) with true by (symmetry; apply Z.leb_le; lia). cbn [abort_unless rbind].
      eexists. split; [reflexivity|]. left. exists ts. cbn [oo_sent oo_residual]. split; [reflexivity|]. split; [exact G|]. left. split; [|reflexivity].
      unfold sending. cbn [oo_send oo_toggle oo_now oo_tot oo_residual oo_last oo_uid oo_ons oo_offs oo_sent]. rewrite last_snoc.
      do 4 eexists. split; [reflexivity|]. split; [reflexivity|]. split; [unfold kept; lia|]. split; [reflexivity|]. split; [exact Lt|]. split; [lia|].
      unfold more. cbn [oo_tot oo_sent]. assert (T' := proj1 T eq_refl). tauto.
    + cbn [rbind]. eexists. split; [reflexivity|]. left. exists ts. unfold cancel_events. cbn [oo_send oo_toggle oo_sent oo_residual]. split; [reflexivity|]. split; [exact G|]. right.
      unfold over. cbn [oo_send oo_toggle oo_sent]. split; [reflexivity|]. split; [reflexivity|].
      assert (T' : ~ (frames = 0 \/ Z.of_nat (length (oo_sent s ++ [ts])) < frames)) by (intros Q; apply T in Q; discriminate).
      rewrite app_length, Nat2Z.inj_add in *. cbn [length] in *. destruct M as [M|[M M']]; lia.
  - (* the on period ends first *)
    assert (Lt : tt <= ts) by (unfold before in D; apply orb_false_iff in D; destruct D as [D _]; apply Z.ltb_ge in D; exact D).
    unfold run_toggle. cbn [rbind]. eexists. split; [reflexivity|]. right.
    unfold stop_sending, cancel_events, schedule_start. cbn [oo_send oo_toggle oo_now oo_tot oo_residual oo_last oo_uid oo_ons oo_offs oo_sent]. rewrite E1.
    replace (ns_of (ao_off c (oo_offs s))) with 0 by (symmetry; apply (ns_int ns_of R 0)). rewrite Z.add_0_r. replace (ao_rate c) with r by reflexivity.
    set (e := tt - oo_last s). assert (He : 0 <= e <= d) by (unfold e; lia).
    destruct (B e r ltac:(lia) ltac:(lia)) as [B1 [B2 B3]]. pose proof (Z.div_mod (e * r) (10 ^ 9) ltac:(lia)) as Dm. pose proof (Z.mod_pos_bound (e * r) (10 ^ 9) ltac:(lia)) as Mb.
    set (b := bits_of e r) in *. set (q := e * r / 10 ^ 9) in *.
    assert (Hed : e * r <= r * d) by nia.
    assert (Hb : oo_residual s + b <= 8 * p) by lia.
    assert (U : u32 (oo_residual s + b) = oo_residual s + b) by (unfold u32; apply Z.mod_small; lia). rewrite U.
    split; [reflexivity|]. split; [|split; [lia|]].
    + exists (oo_uid s). cbn [oo_send oo_toggle oo_now oo_tot oo_residual oo_last oo_uid oo_ons oo_offs oo_sent].
      split; [reflexivity|]. split; [reflexivity|]. split; [|exact M]. unfold kept. set (t0 := last (oo_sent s) start) in *.
      replace (r * (tt - t0)) with (r * (oo_last s - t0) + e * r) by (unfold e; ring).
      split; [lia|]. split; [lia|]. split; [lia|]. split; [lia|]. split; [lia|].
      intros _. destruct (Z.eq_dec m 0) as [->|Nm]; [lia|]. specialize (K6 ltac:(lia)). specialize (L2 ltac:(lia)). lia.
    + intros Hm. specialize (L2 Hm). replace (e * r) with (10 ^ 12 * r) in * by (unfold e; rewrite L2; unfold on; ring). lia.
Qed.

Definition alive (s : onoff) : Prop := exists m, sending m s \/ paused m s.
Lemma alive_run : forall n, exists s, app_run ns_of bits_of c n (start_application ns_of bits_of c start) = Ok s /\ (alive s \/ over s) /\ spaced near_gap start (oo_sent s).
Proof.
  assert (G : forall n s, (alive s \/ over s) -> spaced near_gap start (oo_sent s) ->
    exists s', app_run ns_of bits_of c n s = Ok s' /\ (alive s' \/ over s') /\ spaced near_gap start (oo_sent s')).
  { induction n as [|n IH]; intros s A Sp; cbn [app_run]; [eauto|].
    destruct A as [(m & [A|A])|A].
    - destruct (sending_step m s A) as (s1 & E & [(t & E2 & Gp & N)|(E2 & N & _)]); rewrite E; cbn [rbind]; apply IH.
      + destruct N as [[N _]|N]; [left; exists 0; tauto|tauto].
      + rewrite E2. apply spaced_app. tauto.
      + left. eexists. right. exact N.
      + rewrite E2. exact Sp.
    - destruct (paused_step m s A) as (s1 & E & N & E2 & _). rewrite E. cbn [rbind]. apply IH; [left; exists m; tauto|rewrite E2; exact Sp].
    - assert (E : app_step ns_of bits_of c s = Ok None) by (unfold app_step; destruct A as (A1 & A2 & _); rewrite A1, A2; reflexivity).
      rewrite E. cbn [rbind]. exists s. tauto. }
  intros n. destruct begin_paused as [Bp Bs]. apply G; [left; exists 0; tauto|rewrite Bs; exact I].
Qed.

(** The next packet leaves after finitely many events. *)
Lemma next_packet : forall k m s, (sending m s \/ paused m s) -> 0 <= m ->
  2 * ((if m =? 0 then 1 else 0) + (8 * p - oo_residual s)) + (match oo_send s with None => 1 | _ => 0 end) < Z.of_nat k ->
  exists n s' t, app_run ns_of bits_of c n s = Ok s' /\ oo_sent s' = oo_sent s ++ [t] /\ (alive s' \/ over s').
Proof.
  induction k as [|k IH]; intros m s A Hm Hk.
  - assert (0 <= 8 * p - oo_residual s) by (destruct A as [(? & ? & ? & ? & _ & _ & K & _)|(? & _ & _ & K & _)]; unfold kept in K; lia).
    destruct (m =? 0), (oo_send s); lia.
  - destruct A as [A|A].
    + destruct (sending_step m s A) as (s1 & E & [(t & E2 & Gp & N)|(E2 & N & Le & Lt)]).
      * exists 1%nat, s1, t. cbn. rewrite E. cbn. split; [reflexivity|]. split; [exact E2|]. destruct N as [[N _]|N]; [left; exists 0; tauto|tauto].
      * destruct (IH (m + 1) s1 (or_intror N) ltac:(lia)) as (n & s' & t & F1 & F2 & F3).
        { replace (m + 1 =? 0) with false by (symmetry; apply Z.eqb_neq; lia). destruct A as (ts & u & tt & u' & A1 & _). rewrite A1 in Hk.
          destruct (Z.eqb_spec m 0); [|specialize (Lt ltac:(lia))]; destruct (oo_send s1); lia. }
        exists (Datatypes.S n), s', t. cbn [app_run]. rewrite E. cbn [rbind]. rewrite E2 in F2. tauto.
    + destruct (paused_step m s A) as (s1 & E & N & E2 & E3).
      destruct (IH m s1 (or_introl N) Hm) as (n & s' & t & F1 & F2 & F3).
      { rewrite E3. destruct A as (u & A1 & _). rewrite A1 in Hk. destruct N as (ts & u1 & tt & u' & A2 & _). rewrite A2. lia. }
      exists (Datatypes.S n), s', t. cbn [app_run]. rewrite E. cbn [rbind]. rewrite E2 in F2. tauto.
Qed.

Lemma run_plus' : forall m n s s', app_run ns_of bits_of c m s = Ok s' -> app_run ns_of bits_of c (m + n) s = app_run ns_of bits_of c n s'.
Proof.
  induction m as [|m IH]; intros n s s' E; cbn in *; [injection E as ->; reflexivity|].
  destruct (app_step ns_of bits_of c s) as [[s1|]| | |] eqn:D; cbn in *; try discriminate; [apply IH, E|].
  injection E as ->. destruct n; cbn; [reflexivity|]. rewrite D. reflexivity.
Qed.

Lemma kth_packet : forall k, (frames = 0 \/ Z.of_nat k <= frames) ->
  exists n s, app_run ns_of bits_of c n (start_application ns_of bits_of c start) = Ok s /\ length (oo_sent s) = k /\ (alive s \/ over s).
Proof.
  induction k as [|k IH]; intros Hk.
  - exists O. destruct begin_paused as [Bp Bs]. eexists. split; [reflexivity|]. rewrite Bs. split; [reflexivity|]. left. exists 0. tauto.
  - destruct IH as (n & s & E & L & A); [lia|]. destruct A as [(m & A)|A]; [|destruct A as (_ & _ & A); lia].
    assert (Hm : 0 <= m) by (destruct A as [(? & ? & ? & ? & _ & _ & K & _)|(? & _ & _ & K & _)]; unfold kept in K; lia).
    set (z := 2 * ((if m =? 0 then 1 else 0) + (8 * p - oo_residual s)) + (match oo_send s with None => 1 | _ => 0 end)).
    destruct (next_packet (Z.to_nat (z + 1)) m s A Hm) as (n' & s' & t & F1 & F2 & F3).
    { fold z. assert (0 <= z); [|lia]. unfold z.
      assert (0 <= 8 * p - oo_residual s) by (destruct A as [(? & ? & ? & ? & _ & _ & K & _)|(? & _ & _ & K & _)]; unfold kept in K; lia).
      destruct (m =? 0), (oo_send s); lia. }
    exists (n + n')%nat, s'. rewrite (run_plus' _ _ _ _ E). split; [exact F1|]. rewrite F2, app_length, L. cbn. split; [lia|exact F3].
Qed.
Lemma over_end : forall s, over s -> app_step ns_of bits_of c s = Ok None.
Proof. intros s (A1 & A2 & _). unfold app_step. rewrite A1, A2. reflexivity. Qed.
Lemma alive_count : forall s, alive s -> frames = 0 \/ Z.of_nat (length (oo_sent s)) < frames.
Proof. intros s (m & [(? & ? & ? & ? & A)|(? & A)]); unfold more in A; tauto. Qed.
Lemma over_count : forall s, over s -> Z.of_nat (length (oo_sent s)) = frames.
Proof. intros s A. apply A. Qed.
End Constant.
