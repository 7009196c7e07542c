(** Waiting for the slots of a station. *)
From Coq Require Import ZArith List Lia Bool Arith.
From Verif Require Import Base SatAddrModel ConstellationModel DeviceModel DeviceSpec DeviceProofs DeviceCopies RxModel RxSpec AlohaModel ChannelModel SystemModel SystemSpec SystemProofs DelaySpec UpDelaySpec.
Import ListNotations.
Open Scope Z_scope.

Lemma whole_ge : forall s x, 0 < s -> x <= whole_slots s x.
Proof. intros s x H. unfold whole_slots. pose proof (Z.div_mod (- x) s ltac:(lia)). pose proof (Z.mod_pos_bound (- x) s H). nia. Qed.
Lemma whole_lt : forall s x, 0 < s -> whole_slots s x <= x + s - 1.
Proof. intros s x H. unfold whole_slots. pose proof (Z.div_mod (- x) s ltac:(lia)). pose proof (Z.mod_pos_bound (- x) s H). nia. Qed.
Lemma whole_mono : forall s x y, 0 < s -> x <= y -> whole_slots s x <= whole_slots s y.
Proof. intros s x y H L. unfold whole_slots. pose proof (Z.div_le_mono (- y) (- x) s H ltac:(lia)). nia. Qed.
Lemma whole_mult : forall s k, 0 < s -> whole_slots s (k * s) = k * s.
Proof. intros s k H. unfold whole_slots. replace (- (k * s)) with (- k * s) by lia. rewrite Z.div_mul by lia. lia. Qed.
Lemma whole_add : forall s b x, 0 < s -> whole_slots s b = b -> whole_slots s (b + x) = b + whole_slots s x.
Proof.
  intros s b x H E. unfold whole_slots in *. replace (- (b + x)) with (- x + (- b / s) * s) by lia. rewrite Z.div_add by lia. lia.
Qed.
Lemma whole_whole : forall s x, 0 < s -> whole_slots s (whole_slots s x) = whole_slots s x.
Proof. intros s x H. unfold whole_slots at 2. apply whole_mult, H. Qed.
Lemma whole_one : forall x, whole_slots 1 x = x.
Proof. intros x. unfold whole_slots. rewrite Z.div_1_r. lia. Qed.
Lemma whole_next : forall s x, 0 < s < 2 ^ 64 -> x + time_to_next s x = whole_slots s x.
Proof.
  intros s x H. unfold time_to_next, quotient_low, quotient_high, whole_slots. destruct (Z.ltb_spec 0 s); [|lia].
  pose proof (Z.div_mod x s ltac:(lia)) as D. pose proof (Z.mod_pos_bound x s ltac:(lia)) as B.
  destruct (Z.ltb_spec 0 (x mod s * 2 ^ 64 / s)) as [L|L].
  - assert (0 < x mod s). { destruct (Z.eq_dec (x mod s) 0) as [E|E]; [|lia]. rewrite E in L. cbn [Z.mul] in L. rewrite Z.div_0_l in L by lia. lia. }
    assert (E : - x / s = - (x / s) - 1); [|lia]. symmetry. apply (Z.div_unique (- x) s _ (s - x mod s)); [lia|]. nia.
  - assert (E : x mod s = 0). { destruct (Z.eq_dec (x mod s) 0) as [E|E]; [exact E|]. assert (1 <= x mod s * 2 ^ 64 / s) by (apply Z.div_le_lower_bound; nia). lia. }
    assert (E' : - x / s = - (x / s)); [|lia]. symmetry. apply (Z.div_unique (- x) s _ 0); lia.
Qed.

Lemma nodup_parts : forall A (a b : list A), NoDup (a ++ b) -> NoDup a /\ NoDup b.
Proof.
  induction a as [|x a IH]; intros b N; [split; [constructor|exact N]|]. cbn in N. inversion N as [|? ? N1 N2]; subst. destruct (IH b N2) as (I1 & I2).
  split; [constructor; [intro K; apply N1; apply in_or_app; auto|exact I1]|exact I2].
Qed.
Lemma once : forall A B (f : A -> list B) l, NoDup (flat_map f l) -> forall a b v, In a l -> In b l -> In v (f a) -> In v (f b) -> a = b.
Proof.
  intros A B f l. induction l as [|x l IH]; intros N a b v Ha Hb Va Vb; [destruct Ha|]. cbn in N.
  assert (X : forall c, In c l -> In v (f x) -> In v (f c) -> False).
  { intros c Hc V1 V2. apply in_split in V1. destruct V1 as (l1 & l2 & E). rewrite E in N. rewrite <- app_assoc in N. cbn in N. apply NoDup_remove_2 in N. apply N.
    apply in_or_app. right. apply in_or_app. right. apply in_flat_map. exists c. auto. }
  destruct Ha as [<-|Ha], Hb as [<-|Hb]; auto; try (exfalso; eauto; fail).
  apply (IH (proj2 (nodup_parts _ _ _ N)) a b v); auto.
Qed.

(** A MAC transmits in frames of length [sl]: what it gets is on the air not before the next frame begins, and the last copy not later than
    [E] after that. *)
Definition in_frames (m : tx_mac) (sl E : Z) : Prop :=
  match m with
  | TxNone => sl = 1 /\ E = 0
  | _ => forall t g u l, air_times m t g u = Ok l -> Forall (fun a => whole_slots sl t <= a <= whole_slots sl t + E) l
  end.

Section Waits.
Variable h : host.
Variable con : constellation.
Variable tx_time : Z -> Z -> Z.
Variable rate : nat -> Z.
Variable delay : Z -> nat -> nat -> Z.
Variable loss : Z -> Z -> nat -> nat -> Z.
Variable success : Z -> Z -> nat -> nat -> bool.
Variable ground_addr : nat -> Z.
Variable fits : nat -> list Z -> Z -> bool.
Variable mac : tx_mac.
Context {M : Type}.
Variable rx : mac_rx M.
Variable a0 : nat -> sat_address.
Variable p0 : nat -> Z.
Variable m0 : M.

Hypothesis tx_pos : forall r u, 0 < tx_time r u.
Hypothesis delay_pos : forall t g s, 0 <= delay t g s.
Hypothesis mac_ok : mac_wf mac.
Hypothesis some_copy : forall g u, (1 <= copies mac g u)%nat.
Variables sl E : Z.
Hypothesis sl_pos : 0 < sl.
Hypothesis E_pos : 0 <= E.
Hypothesis frames : in_frames mac sl E.
Variable n : nat.
Variables T D : Z.
Hypothesis tx_max : forall r u, tx_time r u <= T.
Hypothesis delay_max : forall t g s, delay t g s <= D.
Hypothesis room : forall g, holds_up_to n (fits g).

Local Notation go_air := (@go_air h con tx_time rate delay loss success ground_addr fits mac M).
Local Notation ground_call := (@ground_call h con tx_time rate delay loss success ground_addr fits mac M).
Local Notation hand_over := (@hand_over h con tx_time rate delay loss success ground_addr fits mac M).
Local Notation y_step := (@y_step h con tx_time rate delay loss success ground_addr fits mac M rx).
Local Notation y_run := (@y_run h con tx_time rate delay loss success ground_addr fits mac M rx).
Local Notation cps := (copies mac).
Local Notation sys := (@sys M).
Local Notation up := (whole_slots sl).
Local Notation P := (whole_slots sl (E + T)).
Local Notation W := (sl - 1 + Z.of_nat n * whole_slots sl (E + T)).

Lemma P_pos : 0 < P.
Proof. pose proof (whole_ge sl (E + T) sl_pos). pose proof (tx_pos 0 0). pose proof (tx_max 0 0). lia. Qed.
Lemma up_tx : forall b r u t, up b = b -> t <= b + E -> up (t + tx_time r u) <= b + P.
Proof.
  intros b r u t Eb L. pose proof (tx_max r u). pose proof (whole_mono sl (t + tx_time r u) (b + (E + T)) sl_pos ltac:(lia)) as H0. rewrite (whole_add _ _ _ sl_pos Eb) in H0. exact H0.
Qed.

(** Packet [u] was accepted, and at [a] by some station, at most [W] and [x] before. *)
Definition late (ns : list note) (u a x : Z) : Prop := exists t g, accepts ns t g u /\ t <= a <= t + W + x.
(** If station [g] is free again at [e], what it has queued is transmitted in time. *)
Definition queue_ok (ns : list note) (now : Z) (d : gdev) (g : nat) (e : Z) : Prop := forall i u, nth_error (g_queue d) i = Some u ->
  exists t, accepts ns t g u /\ t <= now /\ e + Z.of_nat i * P <= t + W.
Definition next_ok (ns : list note) (now : Z) (d : gdev) (g : nat) (e : Z) : Prop := e <= now + sl - 1 + P /\ queue_ok ns now d g e.
Definition timed (ns : list note) (now : Z) (gr : nat -> gdev) (x : Z * event) : Prop :=
  match snd x with
  | VAir g j => late ns (job_uid j) (fst x) E /\ exists f, up f = f /\ f <= fst x <= f + E /\ late ns (job_uid j) f 0 /\ next_ok ns now (gr g) g (f + P)
  | VDone g j => late ns (job_uid j) (fst x) (E + T) /\ next_ok ns now (gr g) g (up (fst x))
  | VArrive s u r src proto pow => late ns u (fst x) (E + D)
  | VFinish s r src proto => late ns (rx_uid r) (fst x) (E + D + T)
  end.
Definition all_timed (ns : list note) (y : sys) : Prop := Forall (timed ns (y_now y) (y_ground y)) (y_queue y).
Definition ups_timed (ns : list note) : Prop := forall t s u src proto, In (NUp t s u src proto) ns -> late ns u t (E + D + T).

Lemma accepts_app : forall ns ms t g u, accepts ns t g u -> accepts (ns ++ ms) t g u.
Proof. intros ns ms t g u (p & ev & H & K). exists p, ev. split; [apply in_or_app; auto|exact K]. Qed.
Lemma late_app : forall ns ms u a x, late ns u a x -> late (ns ++ ms) u a x.
Proof. intros ns ms u a x (t & g & H & K). exists t, g. split; [apply accepts_app, H|exact K]. Qed.
Lemma late_more : forall ns u a x b y, late ns u a x -> a <= b <= a + y -> late ns u b (x + y).
Proof. intros ns u a x b y (t & g & H & K) L. exists t, g. split; [exact H|lia]. Qed.
Lemma queue_more : forall ns ms now now' d d' g e e', queue_ok ns now d g e -> now <= now' -> e' <= e -> g_queue d' = g_queue d -> queue_ok (ns ++ ms) now' d' g e'.
Proof. intros ns ms now now' d d' g e e' Q L Le Hq0 i u H. rewrite Hq0 in H. destruct (Q i u H) as (t & A & K). exists t. split; [apply accepts_app, A|lia]. Qed.
Lemma timed_more : forall ns ms now now' gr gr' x, timed ns now gr x -> now <= now' -> (forall g e, next_ok ns now (gr g) g e -> queue_ok (ns ++ ms) now' (gr' g) g e) -> timed (ns ++ ms) now' gr' x.
Proof.
  intros ns ms now now' gr gr' [a e] H L K. destruct e; cbn [timed snd fst] in *.
  - destruct H as (B & f & F1 & F2 & F3 & C). pose proof (K _ _ C). destruct C. split; [apply late_app, B|]. exists f. split; [exact F1|]. split; [lia|]. split; [apply late_app, F3|]. split; [lia|assumption].
  - destruct H as (B & C). pose proof (K _ _ C). destruct C. repeat split; [apply late_app, B|lia|assumption].
  - apply late_app, H.
  - apply late_app, H.
Qed.
Lemma all_post : forall ns (y : sys) t e, all_timed ns y -> timed ns (y_now y) (y_ground y) (t, e) -> all_timed ns (add_event t e y).
Proof.
  intros ns y t e A H. unfold all_timed in *. rewrite Forall_forall in *. cbn. intros x Hx. apply post_in in Hx. destruct Hx as [->|Hx]; auto.
Qed.
Lemma all_ground : forall ns ms (y : sys) g d, all_timed ns y -> (forall e, next_ok ns (y_now y) (y_ground y g) g e -> queue_ok (ns ++ ms) (y_now y) d g e) -> all_timed (ns ++ ms) (set_ground y g d).
Proof.
  intros ns ms y g d A H. unfold all_timed in *. rewrite Forall_forall in *. cbn. intros x Hx. eapply timed_more; [exact (A x Hx)|lia|].
  intros g' e K. destruct (Nat.eq_dec g' g) as [->|N]; [rewrite upd_same; apply H, K|]. rewrite upd_other by exact N. destruct K as (_ & K). eapply queue_more; [exact K|lia|lia|reflexivity].
Qed.
Lemma all_later : forall ns ms (y : sys) t q m c, all_timed ns y -> y_now y <= t -> (forall x, In x q -> In x (y_queue y)) -> all_timed (ns ++ ms) (mkSys t q (y_ground y) m c).
Proof.
  intros ns ms y t q m c A L I. unfold all_timed in *. rewrite Forall_forall in *. cbn. intros x Hx. eapply timed_more; [exact (A x (I x Hx))|exact L|].
  intros g e (_ & K). eapply queue_more; [exact K|lia|lia|reflexivity].
Qed.
Lemma ups_quiet : forall ns ms, ups_timed ns -> Forall no_up ms -> ups_timed (ns ++ ms).
Proof.
  intros ns ms U F t s u src proto H. apply in_app_or in H. destruct H as [H|H]; [apply late_app; eapply U; exact H|].
  rewrite Forall_forall in F. specialize (F _ H). destruct F.
Qed.

(** A transmission that begins at [t]. *)
Lemma air_timed : forall ns (y : sys) t g j y' ms, all_timed ns y -> y_now y = t -> job_on_air j = false -> late ns (job_uid j) t E ->
  (exists f, up f = f /\ f <= t <= f + E /\ queue_ok ns t (y_ground y g) g (f + P)) -> go_air y t g j = Ok (y', ms) -> all_timed (ns ++ ms) y'.
Proof.
  intros ns y t g j y' ms A Et Oa L (f & F1 & F2 & Q) H. destruct (go_air_cases _ _ _ _ _ _ _ _ _ _ _ _ _ _ _ _ H Oa) as (k & d & s & K & St & G & C). cbn zeta in C.
  assert (Sq : g_queue d = g_queue (y_ground y g)).
  { cbn [g_step] in St. unfold g_mac_step in St. rewrite (job_index_nth _ _ _ K), Oa in St. injection St as <-. reflexivity. }
  set (nt := NGround t g (GMac k) [EAir (job_uid j) (job_tag j)]) in *.
  assert (A1 : forall ms, all_timed (ns ++ ms) (set_ground y g d)) by (intros ms'; apply all_ground; [exact A|]; intros e (_ & Qe); eapply queue_more; [exact Qe|lia|lia|exact Sq]).
  pose proof (tx_pos (rate g) (job_uid j)). pose proof (tx_max (rate g) (job_uid j)). pose proof (up_tx f (rate g) (job_uid j) t F1 ltac:(lia)) as Ux.
  pose proof P_pos.
  assert (Dn : forall ms (y2 : sys), y_now y2 = t -> y_ground y2 = upd (y_ground y) g d -> timed (ns ++ ms) (y_now y2) (y_ground y2) (t + tx_time (rate g) (job_uid j), VDone g (mkJob (job_uid j) (job_tag j) true))).
  { intros ms' y2 E1 E2. rewrite E1, E2. cbn [timed snd fst job_uid]. rewrite upd_same. split; [|split].
    - eapply late_more; [apply late_app, L|lia].
    - lia.
    - eapply queue_more; [exact Q|lia|exact Ux|exact Sq]. }
  destruct C as [(Su & -> & ->)|(Su & -> & ->)].
  - apply all_post; [|apply Dn; [exact Et|reflexivity]]. apply all_post; [apply A1|]. cbn [timed snd fst]. eapply late_more; [apply late_app, L|].
    pose proof (delay_pos t g s). pose proof (delay_max t g s). lia.
  - apply all_post; [apply A1|apply Dn; [exact Et|reflexivity]].
Qed.

Lemma hand_timed : forall ns (y : sys) t g u y' ms, all_timed ns y -> y_now y = t -> (exists t0, accepts ns t0 g u /\ t0 <= t /\ up t <= t0 + W) ->
  queue_ok ns t (y_ground y g) g (up t + P) -> hand_over y t g u = Ok (y', ms) -> all_timed (ns ++ ms) y'.
Proof.
  intros ns y t g u y' ms A Et (t0 & Ac & Lt & Lw) Q H. unfold SystemModel.hand_over in H. destruct (find_tag u (g_tags (y_ground y g))) as [tag|]; [|discriminate].
  pose proof (whole_ge sl t sl_pos) as Ge. pose proof (whole_lt sl t sl_pos) as Ls. pose proof (whole_whole sl t sl_pos) as Ww. pose proof frames as Fr.
  assert (Many : forall l, Forall (fun a => up t <= a <= up t + E) l -> forall y : sys, y_now y = t -> queue_ok ns t (y_ground y g) g (up t + P) -> all_timed ns y ->
    all_timed ns (post_all (map (fun a => (a, VAir g (mkJob u tag false))) l) y)).
  { clear - Ge Ls Ww Ac Lt Lw. induction l as [|a l IH]; intros F y Et Q A; [exact A|]. inversion F; subst. unfold post_all. cbn [map fold_left fst snd]. apply IH; auto.
    apply all_post; [exact A|]. cbn [timed snd fst job_uid]. split; [exists t0, g; split; [exact Ac|lia]|]. exists (up (y_now y)). split; [exact Ww|]. split; [assumption|]. split; [exists t0, g; split; [exact Ac|lia]|]. split; [lia|exact Q]. }
  destruct mac as [|slot|slot slots repl] eqn:Em; rewrite <- Em in *.
  - rewrite Em in Fr. cbn in Fr. destruct Fr as (F1 & F2).
    assert (Eu : up t = t) by (rewrite F1; apply whole_one). rewrite Eu in *. eapply (air_timed ns y t g (mkJob u tag false)); auto; [exists t0, g; split; [exact Ac|lia]|]. exists t. split; [exact Eu|]. split; [lia|exact Q].
  - destruct (air_times mac t g u) as [l| | |] eqn:At; cbn [rbind] in H; try discriminate. injection H as <- <-. rewrite app_nil_r. apply Many; auto. rewrite Em in Fr. rewrite Em in At. exact (Fr _ _ _ _ At).
  - destruct (air_times mac t g u) as [l| | |] eqn:At; cbn [rbind] in H; try discriminate. injection H as <- <-. rewrite app_nil_r. apply Many; auto. rewrite Em in Fr. rewrite Em in At. exact (Fr _ _ _ _ At).
Qed.

Lemma call_timed : forall ns (y : sys) t g o y' ms, all_timed ns y -> y_now y = t -> (g_busy (y_ground y g) = false -> g_queue (y_ground y g) = []) ->
  match o with GMac k => exists j, nth_error (g_mac (y_ground y g)) k = Some j /\ job_on_air j = true /\ queue_ok ns t (y_ground y g) g (up t) | _ => True end ->
  ground_call y t g o = Ok (y', ms) -> all_timed (ns ++ ms) y'.
Proof.
  intros ns y t g o y' ms A Et Idle Pre H. unfold SystemModel.ground_call, on_ground in H.
  destruct (g_step (fits g) (cps g) (y_ground y g) o) as [[[d ev]| | |]|] eqn:St; cbn [rbind] in H; try discriminate.
  pose proof (whole_ge sl t sl_pos) as Ge. pose proof (whole_lt sl t sl_pos) as Ls. pose proof P_pos as Pp. pose proof sl_pos as Sp.
  assert (Same : forall ms, g_queue d = g_queue (y_ground y g) -> all_timed (ns ++ ms) (set_ground y g d)).
  { intros ms' Hq0. apply all_ground; [exact A|]. intros e (_ & Q). eapply queue_more; [exact Q|lia|lia|exact Hq0]. }
  destruct o as [u p|a|p|k]; cbn [g_step] in St.
  - apply some_inj in St. unfold g_send in St. destruct (find_tag u (g_tags (y_ground y g))); [discriminate|]. destruct (fits g (g_queue (y_ground y g)) u) eqn:Fi.
    + destruct (g_busy (y_ground y g)) eqn:Bu.
      * injection St as <- <-. cbn in H. injection H as <- <-. apply all_ground; [exact A|]. intros e (L & Q) i v Hi. cbn [g_queue] in Hi. destruct (Nat.lt_ge_cases i (List.length (g_queue (y_ground y g)))) as [Li|Li].
        -- rewrite nth_error_app1 in Hi by exact Li. destruct (Q i v Hi) as (t0 & B & C). exists t0. split; [apply accepts_app, B|exact C].
        -- rewrite nth_error_app2 in Hi by exact Li. destruct (i - List.length (g_queue (y_ground y g)))%nat eqn:Ei; [|destruct n0; discriminate]. cbn in Hi. injection Hi as <-.
           exists t. split; [exists p, [EAccept u]; split; [apply in_or_app; right; left; reflexivity|left; reflexivity]|]. split; [lia|]. pose proof (room g _ _ Fi). rewrite Et in L. nia.
      * specialize (Idle eq_refl). rewrite Idle in St. unfold g_transmit_start in St. cbn [g_busy g_queue app negb assert_ rbind] in St. cbn [find_tag find fst snd g_tags] in St. unfold find_tag in St. cbn [find fst snd g_tags] in St. rewrite Z.eqb_refl in St. cbn in St. injection St as <- <-.
        cbn [to_mac flat_map app] in H.
        match type of H with context [hand_over ?a ?b ?c ?e] => destruct (hand_over a b c e) as [[y2 n2]| | |] eqn:Ho end; cbn [rbind] in H; try discriminate. injection H as <- <-.
        replace (ns ++ NGround t g (GSend u p) [EAccept u; EHand u] :: n2) with ((ns ++ [NGround t g (GSend u p) [EAccept u; EHand u]]) ++ n2) by (rewrite <- app_assoc; reflexivity).
        eapply hand_timed; [| | | |exact Ho].
        -- apply Same. rewrite Idle. reflexivity.
        -- exact Et.
        -- exists t. split; [exists p, [EAccept u; EHand u]; split; [apply in_or_app; right; left; reflexivity|left; reflexivity]|]. split; [lia|nia].
        -- intros i v Hi. cbn in Hi. rewrite upd_same in Hi. destruct i; discriminate.
    + injection St as <- <-. cbn in H. injection H as <- <-. apply Same. reflexivity.
  - injection St as <- <-. cbn in H. injection H as <- <-. apply Same. reflexivity.
  - injection St as <- <-. cbn in H. injection H as <- <-. apply Same. reflexivity.
  - destruct Pre as (j & Nk & Oa & Q). unfold g_mac_step in St. rewrite Nk, Oa in St. apply some_inj in St. unfold g_transmit_complete in St. cbn [g_queue] in St.
    destruct (g_queue (y_ground y g)) as [|u q] eqn:Eq.
    + injection St as <- <-. cbn in H. injection H as <- <-. apply Same. reflexivity.
    + unfold g_transmit_start in St. cbn [g_busy negb assert_ rbind g_queue] in St. destruct (find_tag u _) as [tg|] in St; [|discriminate]. cbn [rbind] in St. injection St as <- <-. cbn [to_mac flat_map app] in H.
      match type of H with context [hand_over ?a ?b ?c ?e] => destruct (hand_over a b c e) as [[y2 n2]| | |] eqn:Ho end; cbn [rbind] in H; try discriminate. injection H as <- <-.
      match goal with |- all_timed (ns ++ ?x :: n2) y2 => replace (ns ++ x :: n2) with ((ns ++ [x]) ++ n2) by (rewrite <- app_assoc; reflexivity) end.
      eapply hand_timed; [| | | |exact Ho].
      * apply all_ground; [exact A|]. intros e (_ & Qe) i v Hi. cbn [g_queue] in Hi. destruct (Qe (S i) v) as (t0 & B1 & B2 & B3); [rewrite Eq; exact Hi|]. exists t0. split; [apply accepts_app, B1|lia].
      * exact Et.
      * destruct (Q 0%nat u) as (t0 & B1 & B2 & B3); [rewrite Eq; reflexivity|]. exists t0. split; [apply accepts_app, B1|lia].
      * intros i v Hi. cbn in Hi. rewrite upd_same in Hi. cbn in Hi. destruct (Q (S i) v) as (t0 & B1 & B2 & B3); [rewrite Eq; exact Hi|]. exists t0. split; [apply accepts_app, B1|lia].
Qed.

Lemma step_timed : forall ns (y : sys) o y' ms, y_inv h con tx_time rate delay loss success ground_addr fits mac rx a0 p0 m0 ns y -> (forall g, g_busy (y_ground y g) = false -> g_queue (y_ground y g) = []) ->
  all_timed ns y -> y_step y o = Some (Ok (y', ms)) -> all_timed (ns ++ ms) y'.
Proof.
  intros ns y o y' ms I Idle A H.
  assert (CA : forall t g o, match o with GMac _ => False | _ => True end ->
    call_at h con tx_time rate delay loss success ground_addr fits mac y t g o = Some (Ok (y', ms)) -> all_timed (ns ++ ms) y').
  { intros t g o0 No H0. unfold call_at in H0. destruct ((y_now y <=? t) && forallb (fun e => t <=? fst e) (y_queue y)) eqn:G; [|discriminate]. apply andb_true_iff in G. destruct G as (G & _). apply Z.leb_le in G.
    apply some_inj in H0. eapply call_timed; [| | | |exact H0].
    - rewrite <- (app_nil_r ns). apply all_later; auto.
    - reflexivity.
    - apply Idle.
    - destruct o0; auto. destruct No. }
  destruct o as [t g u p|t g a|t g p|]; cbn [SystemModel.y_step] in H; try (eapply CA; [|exact H]; exact Logic.I). clear CA.
  destruct (y_queue y) as [|[t e] q] eqn:Q; [discriminate|]. apply some_inj in H.
  assert (Nw : y_now y <= t). { pose proof (yi_future _ _ _ _ _ _ _ _ _ _ _ _ _ _ _ _ I) as Fu. rewrite Q in Fu. inversion Fu; assumption. }
  assert (Eo : event_ok h con tx_time rate delay loss success ground_addr ns (t, e)). { pose proof (yi_events _ _ _ _ _ _ _ _ _ _ _ _ _ _ _ _ I) as Ev. rewrite Q in Ev. inversion Ev; assumption. }
  assert (Tm : timed ns (y_now y) (y_ground y) (t, e)). { unfold all_timed in A. rewrite Q in A. inversion A; assumption. }
  assert (Rest : forall ms m c, all_timed (ns ++ ms) (mkSys t q (y_ground y) m c)) by (intros; apply all_later; [exact A|exact Nw|intros x Hx; rewrite Q; right; exact Hx]).
  destruct e as [g j|g j|s u r src proto pow|s r src proto].
  - cbn [timed snd fst] in Tm. destruct Tm as (T2 & f & F1 & F2 & _ & _ & T3). eapply air_timed; [| | | | |exact H].
    + rewrite <- (app_nil_r ns). apply Rest.
    + reflexivity.
    + exact Eo.
    + exact T2.
    + exists f. split; [exact F1|]. split; [exact F2|]. rewrite <- (app_nil_r ns). eapply queue_more; [exact T3|exact Nw|lia|reflexivity].
  - destruct (job_index j (g_mac (y_ground y g))) as [k|] eqn:K; [|discriminate]. cbn [timed snd fst] in Tm. destruct Tm as (T1 & _ & T2). eapply call_timed; [| | | |exact H].
    + rewrite <- (app_nil_r ns). apply Rest.
    + reflexivity.
    + apply Idle.
    + exists j. split; [exact (job_index_nth _ _ _ K)|]. split; [exact Eo|]. rewrite <- (app_nil_r ns). eapply queue_more; [exact T2|exact Nw|lia|reflexivity].
  - injection H as <- <-. unfold all_timed. cbn. apply Forall_forall. intros x Hx. apply post_in in Hx. destruct Hx as [->|Hx].
    + cbn [timed snd fst rx_uid]. apply late_app. eapply late_more; [exact Tm|]. pose proof (tx_pos r u). pose proof (tx_max r u). cbn. lia.
    + pose proof (Rest [NSat t s (OStart t u (tx_time r u) pow)] (y_mac y) (y_calls y)) as Rt. unfold all_timed in Rt. rewrite Forall_forall in Rt. exact (Rt x Hx).
  - unfold finish in H. cbn [y_mac y_now y_queue y_ground y_calls] in H. destruct (mac_finish rx (y_mac y s) r) as [[m up]| | |]; cbn [rbind] in H; try discriminate. injection H as <- <-. apply Rest.
Qed.

Lemma run_timed : forall ops y ns, NoDup (sent_uids ops) -> y_run (y_init a0 p0 m0) ops = Some (Ok (y, ns)) -> all_timed ns y.
Proof.
  induction ops as [|o ops IH] using rev_ind; intros y ns N R.
  - cbn in R. injection R as <- <-. constructor.
  - apply y_run_snoc in R. destruct R as (y1 & n1 & n2 & R1 & R2 & ->). unfold sent_uids in N. rewrite flat_map_app in N. apply nodup_parts in N. destruct N as (N & _).
    pose proof (IH y1 n1 N R1) as A. pose proof (y_run_inv _ _ _ _ _ _ _ _ _ _ _ _ _ _ tx_pos delay_pos mac_ok _ _ _ R1) as I.
    eapply step_timed; [exact I| |exact A|exact R2]. intros g. exact (ci_idle _ _ _ _ (station_inv _ _ _ _ _ _ _ _ _ _ _ _ _ _ tx_pos delay_pos mac_ok some_copy _ _ _ g N R1)).
Qed.

Lemma late_own : forall ops y ns t g u, NoDup (sent_uids ops) -> y_run (y_init a0 p0 m0) ops = Some (Ok (y, ns)) -> accepts ns t g u ->
  (forall t' g', accepts ns t' g' u -> t' = t /\ g' = g) /\ forall a x, late ns u a x -> t <= a <= t + W + x.
Proof.
  intros ops y ns t g u N R Ac.
  assert (Nn : NoDup (flat_map sent_by ns)) by (rewrite <- sent_happened, (run_happened _ _ _ _ _ _ _ _ _ _ _ _ _ _ tx_pos delay_pos mac_ok _ _ _ R), sent_asked; exact N).
  assert (Same : forall t' g', accepts ns t' g' u -> t' = t /\ g' = g).
  { intros t' g' (p' & ev' & H' & _). destruct Ac as (p & ev & H & _). pose proof (once _ _ sent_by ns Nn _ _ u H H' (or_introl eq_refl) (or_introl eq_refl)) as X. injection X as -> -> _ _. auto. }
  split; [exact Same|]. intros a x (t' & g' & H & K). destruct (Same _ _ H); subst; exact K.
Qed.

Lemma run_over : forall ops y ns, NoDup (sent_uids ops) -> y_run (y_init a0 p0 m0) ops = Some (Ok (y, ns)) -> up_over (W + E + D + T) y ns.
Proof.
  intros ops y ns N R t g u Ac. pose proof (run_timed ops y ns N R) as A. pose proof (y_run_inv _ _ _ _ _ _ _ _ _ _ _ _ _ _ tx_pos delay_pos mac_ok _ _ _ R) as I.
  destruct (late_own ops y ns t g u N R Ac) as (Same & La).
  pose proof (tx_pos 0 0). pose proof (tx_max 0 0). pose proof (delay_pos 0 0%nat 0%nat). pose proof (delay_max 0 0%nat 0%nat).
  pose proof (yi_future _ _ _ _ _ _ _ _ _ _ _ _ _ _ _ _ I) as Fu. rewrite Forall_forall in Fu. unfold all_timed in A. rewrite Forall_forall in A.
  intros [Hq|(a & e & He & Ab)].
  - destruct (In_nth_error _ _ Hq) as (i & Hi). pose proof (station_inv _ _ _ _ _ _ _ _ _ _ _ _ _ _ tx_pos delay_pos mac_ok some_copy _ _ _ g N R) as C.
    assert (B : g_busy (y_ground y g) = true). { destruct (g_busy (y_ground y g)) eqn:B; [reflexivity|]. rewrite (ci_idle _ _ _ _ C B) in Hq. destruct Hq. }
    pose proof (ci_busy _ _ _ _ C B) as Nm. destruct (g_mac (y_ground y g)) as [|j m] eqn:Em; [congruence|]. clear Nm.
    pose proof (jobs_run _ _ _ _ _ _ _ _ _ _ _ _ _ _ tx_pos delay_pos mac_ok some_copy _ _ _ R g j) as J. rewrite Em, times_cons, is_job_refl in J.
    assert (X : exists x, In x (y_queue y) /\ job_event g j x = true).
    { clear - J. rewrite times_nil in J. induction (y_queue y) as [|x l IH]; [rewrite times_nil in J; cbn in J; lia|]. destruct (job_event g j x) eqn:Hq0; [exists x; split; [left; reflexivity|exact Hq0]|].
      rewrite times_cons, Hq0 in J. destruct IH as (z & Hz & Ez); [exact J|]. exists z. split; [right; exact Hz|exact Ez]. }
    destruct X as ([a e] & Hx & Ex). pose proof (A _ Hx) as Tm. pose proof (Fu _ Hx) as Fx. cbn in Fx. pose proof P_pos. pose proof (whole_ge sl a sl_pos).
    destruct e as [g' j'|g' j'| |]; cbn in Ex; try discriminate; apply andb_true_iff in Ex; destruct Ex as (Eg & _); apply Nat.eqb_eq in Eg; subst g'; cbn [timed snd fst] in Tm.
    * destruct Tm as (_ & f & F1 & F2 & _ & _ & Tm). destruct (Tm i u Hi) as (t' & H' & _ & L). destruct (Same _ _ H'); subst. nia.
    * destruct Tm as (_ & _ & Tm). destruct (Tm i u Hi) as (t' & H' & _ & L). destruct (Same _ _ H'); subst. nia.
  - pose proof (A _ He) as Tm. pose proof (Fu _ He) as Fx. cbn in Fx. destruct e as [g' j'|g' j'|s v r src proto pow|s r src proto]; cbn [about] in Ab; subst u; cbn [timed snd fst] in Tm.
    * destruct Tm as (Tm & _). apply La in Tm. lia.
    * destruct Tm as (Tm & _). apply La in Tm. lia.
    * apply La in Tm. lia.
    * apply La in Tm. lia.
Qed.

(** A receiver that passes up nothing but the frame that ends. *)
Hypothesis rx_one : single rx.

Lemma step_ups : forall ns (y : sys) o y' ms, y_inv h con tx_time rate delay loss success ground_addr fits mac rx a0 p0 m0 ns y -> all_timed ns y -> ups_timed ns -> y_step y o = Some (Ok (y', ms)) -> ups_timed (ns ++ ms).
Proof.
  intros ns y o y' ms I A U H. destruct (step_no_up _ _ _ _ _ _ _ _ _ _ _ _ _ _ mac_ok _ _ _ _ _ I H) as [K|(t & s & r & src & proto & q & m & up & _ & Q & Fi & -> & _)].
  - apply ups_quiet; assumption.
  - intros tm s' u src' proto' Hu. apply in_app_or in Hu. destruct Hu as [Hu|Hu]; [apply late_app; eapply U; exact Hu|]. apply late_app. destruct Hu as [Hu|Hu]; [discriminate|].
    unfold all_timed in A. rewrite Q in A. inversion A as [|? ? Tm _]. cbn [timed snd fst] in Tm. apply in_map_iff in Hu. destruct Hu as (v & Hu & Hv). injection Hu as <- _ <- _ _.
    destruct (rx_one _ _ _ _ Fi) as [->| ->]; [destruct Hv|]. destruct Hv as [<-|[]]. exact Tm.
Qed.

Lemma run_ups : forall ops y ns, NoDup (sent_uids ops) -> y_run (y_init a0 p0 m0) ops = Some (Ok (y, ns)) -> ups_timed ns.
Proof.
  induction ops as [|o ops IH] using rev_ind; intros y ns N R.
  - cbn in R. injection R as <- <-. intros t s u src proto [].
  - apply y_run_snoc in R. destruct R as (y1 & n1 & n2 & R1 & R2 & ->). unfold sent_uids in N. rewrite flat_map_app in N. apply nodup_parts in N. destruct N as (N & _).
    pose proof (y_run_inv _ _ _ _ _ _ _ _ _ _ _ _ _ _ tx_pos delay_pos mac_ok _ _ _ R1) as I. eapply step_ups; [exact I|eapply run_timed; eauto|eapply IH; eauto|exact R2].
Qed.

Lemma run_within : forall ops y ns, NoDup (sent_uids ops) -> y_run (y_init a0 p0 m0) ops = Some (Ok (y, ns)) -> up_within (W + E + D + T) y ns.
Proof.
  intros ops y ns N R t g u Ac. split; [exact (run_over ops y ns N R t g u Ac)|]. destruct (late_own ops y ns t g u N R Ac) as (_ & La).
  intros tm s src proto Hu. apply (run_ups ops y ns N R), La in Hu. lia.
Qed.
End Waits.
