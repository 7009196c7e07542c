(** Invariants of whole runs. *)
From Coq Require Import ZArith List Lia Bool Arith Sorting.Sorted.
From Verif Require Import Base SatAddrModel ConstellationModel DeviceModel DeviceSpec DeviceProofs DeviceProps DeviceCopies
  RxModel RxSpec RxProofs AlohaModel CrdsaModel ChannelModel SystemModel SystemSpec.
Import ListNotations.
Open Scope Z_scope.

(** * The event queue *)
Definition by_time (a b : Z * event) : Prop := fst a <= fst b.

Lemma post_in : forall t e q x, In x (post t e q) <-> x = (t, e) \/ In x q.
Proof.
  induction q as [|y q IH]; intros x; cbn [post].
  - cbn. intuition congruence.
  - destruct (fst y <=? t); cbn [In]; [rewrite IH|]; intuition congruence.
Qed.

Lemma post_sorted : forall t e q, StronglySorted by_time q -> StronglySorted by_time (post t e q).
Proof.
  induction q as [|y q IH]; intros So; cbn [post]; [repeat constructor|].
  inversion So; subst. destruct (Z.leb_spec (fst y) t).
  - constructor; auto. apply Forall_forall. intros x Hx. apply post_in in Hx. destruct Hx as [->|Hx]; [exact H|].
    rewrite Forall_forall in H2. apply H2; exact Hx.
  - constructor; auto. constructor; [unfold by_time; cbn; lia|]. apply Forall_forall. intros x Hx.
    rewrite Forall_forall in H2. specialize (H2 x Hx). unfold by_time in *. cbn. lia.
Qed.

Lemma post_times : forall (f : Z * event -> bool) t e q, times f (post t e q) = (times f q + if f (t, e) then 1 else 0)%nat.
Proof.
  induction q as [|y q IH]; cbn [post]; rewrite ?times_cons, ?times_nil; [lia|].
  destruct (fst y <=? t); rewrite !times_cons; [rewrite IH|]; lia.
Qed.

(** Receptions that a satellite still has to finish. *)
Definition pend (s : nat) (q : list (Z * event)) : list reception :=
  flat_map (fun e => match snd e with VFinish s' r _ _ => if (s' =? s)%nat then [r] else [] | _ => [] end) q.

Definition finish_of (s : nat) (e : event) : option reception :=
  match e with VFinish s' r _ _ => if (s' =? s)%nat then Some r else None | _ => None end.

Lemma pend_cons : forall s t e q,
  pend s ((t, e) :: q) = match finish_of s e with Some r => r :: pend s q | None => pend s q end.
Proof.
  intros. unfold pend. cbn [flat_map snd]. destruct e; cbn [finish_of]; try reflexivity.
  destruct (s0 =? s)%nat; reflexivity.
Qed.

Definition on_end (x : Z * event) : Prop :=
  match snd x with VFinish _ r _ _ => fst x = rx_end r | _ => True end.

Lemma pend_post_other : forall s t e q, finish_of s e = None -> pend s (post t e q) = pend s q.
Proof.
  induction q as [|[t' e'] q IH]; intros N; cbn [post fst].
  - rewrite pend_cons, N. reflexivity.
  - destruct (t' <=? t); rewrite !pend_cons.
    + rewrite IH by exact N. reflexivity.
    + rewrite N. reflexivity.
Qed.

Lemma pend_in : forall s q r, In r (pend s q) -> exists t src p, In (t, VFinish s r src p) q.
Proof.
  intros s q r H. unfold pend in H. apply in_flat_map in H. destruct H as ((t & e) & Hq & Hr). cbn [snd] in Hr.
  destruct e; try contradiction. destruct (Nat.eqb_spec s0 s); [|contradiction]. destruct Hr as [<-|[]]. subst. eauto.
Qed.

Lemma pend_post_same : forall s r src p q, StronglySorted by_time q -> Forall on_end q ->
  pend s (post (rx_end r) (VFinish s r src p) q) = schedule r (pend s q).
Proof.
  induction q as [|[t' e'] q IH]; intros So Oe; cbn [post fst].
  - rewrite pend_cons. cbn [finish_of]. rewrite Nat.eqb_refl. reflexivity.
  - inversion So; subst. inversion Oe; subst. destruct (Z.leb_spec t' (rx_end r)).
    + rewrite !pend_cons. destruct (finish_of s e') as [x|] eqn:F; [|apply IH; auto].
      cbn [schedule]. rewrite IH by auto.
      assert (E : rx_end x = t').
      { unfold on_end in H3. cbn [snd fst] in H3. destruct e'; cbn in F; try discriminate.
        destruct (s0 =? s)%nat; [|discriminate]. injection F as ->. auto. }
      rewrite E. rewrite (proj2 (Z.leb_le _ _)) by lia. reflexivity.
    + rewrite (pend_cons s (rx_end r)). cbn [finish_of]. rewrite Nat.eqb_refl.
      assert (X : forall x, In x (pend s ((t', e') :: q)) -> rx_end r < rx_end x).
      { intros x Hx. apply pend_in in Hx. destruct Hx as (t2 & src2 & p2 & Hx).
        pose proof (proj1 (Forall_forall _ _) Oe _ Hx) as E. cbn in E. subst t2.
        destruct Hx as [Hx|Hx]; [injection Hx as -> _; lia|].
        rewrite Forall_forall in H2. specialize (H2 _ Hx). unfold by_time in H2. cbn in H2. lia. }
      destruct (pend s ((t', e') :: q)) as [|x l]; [reflexivity|]. cbn [schedule].
      specialize (X x (or_introl eq_refl)). rewrite (proj2 (Z.leb_gt _ _)) by exact X. reflexivity.
Qed.

(** * Reading notes *)
Lemma station_ops_app : forall g a b, station_ops g (a ++ b) = station_ops g a ++ station_ops g b.
Proof. intros. apply flat_map_app. Qed.
Lemma station_events_app : forall g a b, station_events g (a ++ b) = station_events g a ++ station_events g b.
Proof. intros. apply flat_map_app. Qed.
Lemma sat_ops_app : forall g a b, sat_ops g (a ++ b) = sat_ops g a ++ sat_ops g b.
Proof. intros. apply flat_map_app. Qed.
Lemma sat_ups_app : forall g a b, sat_ups g (a ++ b) = sat_ups g a ++ sat_ups g b.
Proof. intros. apply flat_map_app. Qed.
Lemma happened_app : forall a b, happened (a ++ b) = happened a ++ happened b.
Proof. intros. apply flat_map_app. Qed.
Lemma asked_app : forall a b, asked (a ++ b) = asked a ++ asked b.
Proof. intros. apply flat_map_app. Qed.

Lemma upd_same : forall A (f : nat -> A) i x, upd f i x i = x.
Proof. intros. unfold upd. rewrite Nat.eqb_refl. reflexivity. Qed.
Lemma upd_other : forall A (f : nat -> A) i x j, j <> i -> upd f i x j = f j.
Proof. intros. unfold upd. rewrite (proj2 (Nat.eqb_neq _ _)) by exact H. reflexivity. Qed.

Section System.
Variable h : host.
Variable con : constellation.
Variable tx_time : Z -> Z -> Z.
Variable rate : nat -> Z.
Variable delay : Z -> nat -> nat -> Z.
Variable loss : Z -> Z -> nat -> nat -> Z.
Variable success : Z -> Z -> nat -> nat -> bool.
Variable ground_addr : nat -> Z.
Variable fits : nat -> list Z -> Z -> bool.
Variable mac : tx_mac.
Context {M : Type}.
Variable rx : mac_rx M.
Variable a0 : nat -> sat_address.
Variable p0 : nat -> Z.
Variable m0 : M.

Hypothesis tx_pos : forall r u, 0 < tx_time r u.
Hypothesis delay_pos : forall t g s, 0 <= delay t g s.
Definition mac_wf (m : tx_mac) : Prop :=
  match m with TxCrdsa slot slots _ => 0 <= slot /\ forall g u, Forall (fun k => 0 <= k) (slots g u) | _ => True end.
Hypothesis mac_ok : mac_wf mac.

Local Notation go_air := (@go_air h con tx_time rate delay loss success ground_addr fits mac M).
Local Notation ground_call := (@ground_call h con tx_time rate delay loss success ground_addr fits mac M).
Local Notation hand_over := (@hand_over h con tx_time rate delay loss success ground_addr fits mac M).
Local Notation y_step := (@y_step h con tx_time rate delay loss success ground_addr fits mac M rx).
Local Notation y_run := (@y_run h con tx_time rate delay loss success ground_addr fits mac M rx).
Local Notation cps := (copies mac).
Local Notation sys := (@sys M).

(** A frame that some station sent to satellite [s], to arrive at [t]. *)
Definition aired (ns : list note) (t : Z) (s : nat) (u r src proto pow : Z) : Prop :=
  exists n1 n2 tt g k tag, ns = n1 ++ NGround tt g (GMac k) [EAir u tag] :: n2 /\
    src = ground_addr g /\ proto = tg_proto tag /\ r = rate g /\ get_satellite_addr h con (tg_dst tag) = Ok (Some s) /\
    t = tt + delay tt g s /\ success tt u g s = true /\ pow = loss tt (tg_power tag) g s.

Lemma aired_app : forall ns n t s u r src proto pow, aired ns t s u r src proto pow -> aired (ns ++ n) t s u r src proto pow.
Proof.
  intros ns n t s u r src proto pow (n1 & n2 & tt & g & k & tag & -> & H).
  exists n1, (n2 ++ n), tt, g, k, tag. split; [rewrite <- app_assoc; reflexivity|exact H].
Qed.

Definition received_ok (ns : list note) (s : nat) (x : reception) (src proto : Z) : Prop :=
  exists r, aired ns (rx_start x) s (rx_uid x) r src proto (rx_pow x) /\ rx_end x = rx_start x + tx_time r (rx_uid x).

Definition event_ok (ns : list note) (x : Z * event) : Prop :=
  match snd x with
  | VAir g j => job_on_air j = false
  | VDone g j => job_on_air j = true
  | VArrive s u r src proto pow => aired ns (fst x) s u r src proto pow
  | VFinish s r src proto => fst x = rx_end r /\ received_ok ns s r src proto
  end.

Definition sat_state (ns : list note) (y : sys) (s : nat) (q : list reception) : Prop :=
  exists st, rx_run rx (rx_init m0) (sat_ops s ns) = Some (Ok st) /\ st_mac st = y_mac y s /\ st_pending st = q /\
    st_now st <= y_now y /\ flat_map snd (st_log st) = sat_ups s ns.

(** Every prefix of what happened is a run of every station. *)
Definition prefix_ok (ns : list note) : Prop := forall n1 n2 g, ns = n1 ++ n2 ->
  exists d, g_run (fits g) (cps g) (g_init (a0 g) (p0 g)) (station_ops g n1) = Some (Ok (d, station_events g n1)).

Definition silent (n : note) : Prop := match n with NGround _ _ _ _ => False | _ => True end.

Lemma prefix_snoc : forall ns n, prefix_ok ns ->
  (forall g, exists d, g_run (fits g) (cps g) (g_init (a0 g) (p0 g)) (station_ops g (ns ++ [n])) =
                       Some (Ok (d, station_events g (ns ++ [n])))) ->
  prefix_ok (ns ++ [n]).
Proof.
  intros ns n P H n1 n2 g E. destruct n2 as [|x n2] using rev_ind.
  - rewrite app_nil_r in E. subst n1. apply H.
  - rewrite app_assoc in E. apply app_inj_tail in E. destruct E as [E _]. exact (P n1 n2 g E).
Qed.

Lemma prefix_silent : forall l ns, prefix_ok ns -> Forall silent l -> prefix_ok (ns ++ l).
Proof.
  induction l as [|n l IH]; intros ns P F; [rewrite app_nil_r; exact P|]. inversion F; subst.
  replace (ns ++ n :: l) with ((ns ++ [n]) ++ l) by (rewrite <- app_assoc; reflexivity). apply IH; [|assumption].
  apply prefix_snoc; [exact P|]. intros g. destruct (P ns [] g) as [d D]; [rewrite app_nil_r; reflexivity|].
  exists d. rewrite station_ops_app, station_events_app. destruct n; [contradiction| | |]; cbn; rewrite !app_nil_r; exact D.
Qed.

Record y_inv (ns : list note) (y : sys) : Prop := mkYInv {
  yi_prefix : prefix_ok ns;
  yi_ground : forall g, g_run (fits g) (cps g) (g_init (a0 g) (p0 g)) (station_ops g ns) =
                        Some (Ok (y_ground y g, station_events g ns));
  yi_sat : forall s, sat_state ns y s (pend s (y_queue y));
  yi_sorted : StronglySorted by_time (y_queue y);
  yi_future : Forall (fun x => y_now y <= fst x) (y_queue y);
  yi_start : 0 <= y_now y;
  yi_events : Forall (event_ok ns) (y_queue y);
  yi_calls : forall s, map fst (y_calls y s) = map rx_uid (receptions (sat_ops s ns));
  yi_meta : forall s u src proto, In (u, (src, proto)) (y_calls y s) -> exists t r pow, aired ns t s u r src proto pow;
  yi_received : forall s x, In x (receptions (sat_ops s ns)) -> exists src proto, received_ok ns s x src proto;
  yi_times : StronglySorted Z.le (map note_time ns);
  yi_past : Forall (fun n => note_time n <= y_now y) ns }.

Lemma y_start : y_inv [] (y_init a0 p0 m0).
Proof.
  constructor; cbn; try (constructor; fail); try reflexivity; try tauto; try lia.
  { intros n1 n2 g E. symmetry in E. apply app_eq_nil in E. destruct E as [-> ->]. eexists. reflexivity. }
  intros s. exists (rx_init m0). cbn. repeat split. lia.
Qed.

Lemma event_ok_app : forall ns n x, event_ok ns x -> event_ok (ns ++ n) x.
Proof.
  intros ns n [t e]. unfold event_ok. cbn. destruct e; auto.
  - apply aired_app.
  - intros (A & r0 & B & C). split; [exact A|]. exists r0. split; [apply aired_app; exact B|exact C].
Qed.

Lemma received_ok_app : forall ns n s x src p, received_ok ns s x src p -> received_ok (ns ++ n) s x src p.
Proof. intros ns n s x src p (r & A & B). exists r. split; [apply aired_app; exact A|exact B]. Qed.

Lemma times_snoc : forall ns n y, StronglySorted Z.le (map note_time ns) ->
  Forall (fun n => note_time n <= y_now (M := M) y) ns -> note_time n = y_now y ->
  StronglySorted Z.le (map note_time (ns ++ [n])) /\ Forall (fun n => note_time n <= y_now y) (ns ++ [n]).
Proof.
  intros ns n y So Fo E. split.
  - rewrite map_app. cbn [map]. revert So Fo. induction ns as [|x ns IH]; intros So Fo; cbn [map app]; [repeat constructor|].
    inversion So; subst. inversion Fo; subst. constructor; [auto|]. apply Forall_app. split; [assumption|].
    constructor; [lia|constructor].
  - apply Forall_app. split; [exact Fo|]. constructor; [lia|constructor].
Qed.

Lemma on_end_ok : forall ns q, Forall (event_ok ns) q -> Forall on_end q.
Proof.
  intros ns q H. eapply Forall_impl; [|exact H]. intros [t e]. unfold event_ok, on_end. cbn. destruct e; tauto.
Qed.

(** ** Small steps *)
Lemma inv_ground : forall ns y g o d ev, y_inv ns y ->
  g_step (fits g) (cps g) (y_ground y g) o = Some (Ok (d, ev)) ->
  y_inv (ns ++ [NGround (y_now y) g o ev]) (set_ground y g d).
Proof.
  intros ns y g o d ev [Pr Gr Sa So Fu St Ev Ca Me Re Ti Pa] E.
  set (n := NGround (y_now y) g o ev).
  assert (Es : forall s, sat_ops s (ns ++ [n]) = sat_ops s ns) by (intros; rewrite sat_ops_app; apply app_nil_r).
  assert (Eu : forall s, sat_ups s (ns ++ [n]) = sat_ups s ns) by (intros; rewrite sat_ups_app; apply app_nil_r).
  destruct (times_snoc ns n y Ti Pa eq_refl) as [Ti' Pa'].
  assert (Gr' : forall g', g_run (fits g') (cps g') (g_init (a0 g') (p0 g')) (station_ops g' (ns ++ [n])) =
                          Some (Ok (upd (y_ground y) g d g', station_events g' (ns ++ [n])))).
  { intros g'. rewrite station_ops_app, station_events_app, g_run_app, Gr. unfold n. cbn [station_ops station_events flat_map].
    destruct (Nat.eqb_spec g g') as [->|Ne].
    - cbn [app g_run]. rewrite E, upd_same. rewrite !app_nil_r. reflexivity.
    - cbn [app g_run]. rewrite upd_other by congruence. reflexivity. }
  constructor; cbn [set_ground y_ground y_mac y_queue y_calls y_now]; auto.
  - apply prefix_snoc; [exact Pr|]. intros g'. eexists. apply Gr'.
  - intros s. destruct (Sa s) as (st & A & B & C & D & F). exists st. rewrite Es, Eu. repeat split; auto.
  - eapply Forall_impl; [|exact Ev]. intros; apply event_ok_app; assumption.
  - intros s. rewrite Es. auto.
  - intros s u src proto H. destruct (Me _ _ _ _ H) as (t & r & pow & A). exists t, r, pow. apply aired_app; exact A.
  - intros s x. rewrite Es. intros H. destruct (Re s x H) as (src & p & A). exists src, p. apply received_ok_app; exact A.
Qed.

Lemma inv_drop : forall ns y g u, y_inv ns y -> y_inv (ns ++ [NDrop (y_now y) g u]) y.
Proof.
  intros ns y g u [Pr Gr Sa So Fu St Ev Ca Me Re Ti Pa].
  set (n := NDrop (y_now y) g u).
  assert (Es : forall s, sat_ops s (ns ++ [n]) = sat_ops s ns) by (intros; rewrite sat_ops_app; apply app_nil_r).
  assert (Eu : forall s, sat_ups s (ns ++ [n]) = sat_ups s ns) by (intros; rewrite sat_ups_app; apply app_nil_r).
  destruct (times_snoc ns n y Ti Pa eq_refl) as [Ti' Pa'].
  constructor; auto.
  - apply prefix_silent; [exact Pr|repeat constructor].
  - intros g'. rewrite station_ops_app, station_events_app. cbn. rewrite !app_nil_r. apply Gr.
  - intros s. destruct (Sa s) as (st & A & B & C & D & F). exists st. rewrite Es, Eu. repeat split; auto.
  - eapply Forall_impl; [|exact Ev]. intros; apply event_ok_app; assumption.
  - intros s. rewrite Es. auto.
  - intros s v src proto H. destruct (Me _ _ _ _ H) as (t & r & pow & A). exists t, r, pow. apply aired_app; exact A.
  - intros s x. rewrite Es. intros H. destruct (Re s x H) as (src & p & A). exists src, p. apply received_ok_app; exact A.
Qed.

Lemma inv_post : forall ns y t e, y_inv ns y -> y_now y <= t -> (forall s, finish_of s e = None) ->
  event_ok ns (t, e) -> y_inv ns (add_event t e y).
Proof.
  intros ns y t e [Pr Gr Sa So Fu St Ev Ca Me Re Ti Pa] Ht Fo Eo.
  constructor; cbn [add_event y_ground y_mac y_queue y_calls y_now]; auto.
  - intros s. rewrite pend_post_other by apply Fo. apply Sa.
  - apply post_sorted; exact So.
  - apply Forall_forall. intros x Hx. apply post_in in Hx. destruct Hx as [->|Hx]; [exact Ht|].
    rewrite Forall_forall in Fu. auto.
  - apply Forall_forall. intros x Hx. apply post_in in Hx. destruct Hx as [->|Hx]; [exact Eo|].
    rewrite Forall_forall in Ev. auto.
Qed.

Lemma inv_post_all : forall l ns y, y_inv ns y ->
  Forall (fun x => y_now y <= fst x /\ (forall s, finish_of s (snd x) = None) /\ event_ok ns x) l ->
  y_inv ns (post_all l y).
Proof.
  induction l as [|[t e] l IH]; intros ns y I F; [exact I|]. inversion F as [|? ? (A & B & C) F']; subst.
  unfold post_all. cbn [fold_left fst snd]. apply IH; [apply inv_post; auto|]. exact F'.
Qed.

Lemma post_all_fields : forall l (y : sys), y_now (post_all l y) = y_now y /\ y_ground (post_all l y) = y_ground y /\
  y_mac (post_all l y) = y_mac y /\ y_calls (post_all l y) = y_calls y.
Proof.
  induction l as [|x l IH]; intros y; [repeat split|]. unfold post_all. cbn [fold_left].
  destruct (IH (add_event (fst x) (snd x) y)) as (A & B & C & D). unfold post_all in *. rewrite A, B, C, D.
  repeat split.
Qed.

(** ** What the device and the channel do *)
Lemma job_index_nth : forall j l k, job_index j l = Some k -> nth_error l k = Some j.
Proof.
  induction l as [|x l IH]; intros k H; cbn in H; [discriminate|].
  destruct (job_dec x j) as [->|N]; [injection H as <-; reflexivity|].
  destruct (job_index j l) as [n|]; [|discriminate]. injection H as <-. cbn. apply IH. reflexivity.
Qed.

Lemma transmit_cases : forall t u rt g dst proto pow tx outs,
  transmit2sat h tx_time (delay t) (loss t) (Some (success t u)) ground_addr (mkGS (Some con) []) u rt g dst proto pow
    = Ok (tx, outs) ->
  tx = tx_time rt u /\ exists s, get_satellite_addr h con dst = Ok (Some s) /\
  ((success t u g s = true /\ outs = [AtSat (delay t g s) s u rt (SrcGround (ground_addr g)) proto (loss t pow g s)]) \/
   (success t u g s = false /\ outs = [Dropped u])).
Proof.
  intros t u rt g dst proto pow tx outs H. unfold transmit2sat in H. cbn [gs_con] in H.
  destruct (get_satellite_addr h con dst) as [[s|]| | |] eqn:G; cbn [rbind] in H; try discriminate.
  unfold gs_succeeds in H. destruct (success t u g s) eqn:E; injection H as <- <-; split; auto; exists s; split; auto.
Qed.

Lemma go_air_cases : forall y t g j y' ns', go_air y t g j = Ok (y', ns') -> job_on_air j = false ->
  exists k d s, job_index j (g_mac (y_ground y g)) = Some k /\
    g_step (fits g) (cps g) (y_ground y g) (GMac k) = Some (Ok (d, [EAir (job_uid j) (job_tag j)])) /\
    get_satellite_addr h con (tg_dst (job_tag j)) = Ok (Some s) /\
    let n := NGround t g (GMac k) [EAir (job_uid j) (job_tag j)] in
    let done := VDone g (mkJob (job_uid j) (job_tag j) true) in
    let end_ := t + tx_time (rate g) (job_uid j) in
    (success t (job_uid j) g s = true /\ ns' = [n] /\
      y' = add_event end_ done
        (add_event (t + delay t g s) (VArrive s (job_uid j) (rate g) (ground_addr g) (tg_proto (job_tag j))
                                        (loss t (tg_power (job_tag j)) g s)) (set_ground y g d))) \/
    (success t (job_uid j) g s = false /\ ns' = [n; NDrop t g (job_uid j)] /\
      y' = add_event end_ done (set_ground y g d)).
Proof.
  intros y t g j y' ns' H N. unfold SystemModel.go_air in H. unfold on_ground in H.
  destruct (job_index j (g_mac (y_ground y g))) as [k|] eqn:K; [|discriminate].
  pose proof (job_index_nth _ _ _ K) as Nk.
  assert (St : g_step (fits g) (cps g) (y_ground y g) (GMac k) =
    Some (Ok (mkG (g_remote (y_ground y g)) (g_power (y_ground y g)) (g_busy (y_ground y g)) (g_queue (y_ground y g))
      (g_tags (y_ground y g)) (set_nth k (mkJob (job_uid j) (job_tag j) true) (g_mac (y_ground y g))),
      [EAir (job_uid j) (job_tag j)]))).
  { cbn [g_step]. unfold g_mac_step. rewrite Nk, N. reflexivity. }
  rewrite St in H.
  destruct (transmit2sat _ _ _ _ _ _ _ _ _ _ _ _ _) as [[tx outs]| | |] eqn:T in H; cbn [rbind] in H; try discriminate.
  apply transmit_cases in T. destruct T as (-> & s & G & Ou).
  eexists k, _, s. split; [reflexivity|]. split; [exact St|]. split; [exact G|]. cbn zeta.
  destruct Ou as [[Su ->]|[Su ->]]; cbn [arrivals drops flat_map app post_all fold_left fst snd] in H;
    injection H as <- <-; [left|right]; auto.
Qed.

Lemma inv_go_air : forall ns y t g j y' ns', y_inv ns y -> y_now y = t -> job_on_air j = false ->
  go_air y t g j = Ok (y', ns') -> y_inv (ns ++ ns') y' /\ y_now y' = t.
Proof.
  intros ns y t g j y' ns' I Et N H.
  destruct (go_air_cases _ _ _ _ _ _ H N) as (k & d & s & K & St & G & C). cbn zeta in C.
  pose proof (inv_ground ns y g (GMac k) d _ I St) as I1. rewrite Et in I1.
  set (n := NGround t g (GMac k) [EAir (job_uid j) (job_tag j)]) in *.
  pose proof (tx_pos (rate g) (job_uid j)) as Tp. pose proof (delay_pos t g s) as Dp.
  destruct C as [(Su & -> & ->)|(Su & -> & ->)].
  - split; [|exact Et]. apply inv_post; [| |reflexivity|reflexivity].
    + apply inv_post; [exact I1| |reflexivity|].
      * cbn. lia.
      * unfold event_ok. cbn [snd fst]. exists ns, [], t, g, k, (job_tag j). split; [reflexivity|]. repeat split; auto.
    + cbn. lia.
  - split; [|exact Et]. pose proof (inv_drop _ _ g (job_uid j) I1) as I2.
    replace (y_now (set_ground y g d)) with t in I2 by (symmetry; exact Et).
    rewrite <- app_assoc in I2. cbn [app] in I2.
    apply inv_post; [exact I2| |reflexivity|reflexivity]. cbn. lia.
Qed.

Lemma time_to_next_nonneg : forall d now, 0 <= time_to_next d now.
Proof.
  intros d now. unfold time_to_next, quotient_low, quotient_high. destruct (Z.ltb_spec 0 d); [|lia].
  destruct (_ <? _); [|lia]. pose proof (Z.div_mod now d ltac:(lia)). pose proof (Z.mod_pos_bound now d ltac:(lia)). lia.
Qed.

Lemma air_times_ok : forall t g u l, air_times mac t g u = Ok l ->
  Forall (fun a => t <= a) l /\ length l = cps g u.
Proof.
  intros t g u l H. unfold air_times, copies in *. destruct mac as [|slot|slot slots replicas]; cbn [mac_wf] in mac_ok.
  - injection H as <-. split; [repeat constructor; lia|reflexivity].
  - injection H as <-. cbn. pose proof (time_to_next_nonneg slot t). split; [repeat constructor; lia|reflexivity].
  - destruct mac_ok as [Sp Sl]. unfold rmap, crdsa_send, selected_slots in H.
    destruct (length (slots g u) <? replicas g u)%nat eqn:L; cbn [rbind] in H; [discriminate|]. injection H as <-.
    apply Nat.ltb_ge in L. split.
    + rewrite map_map. cbn [fst]. apply Forall_forall. intros a Ha. apply in_map_iff in Ha.
      destruct Ha as (k & <- & Hk).
      assert (0 <= k). { specialize (Sl g u). rewrite Forall_forall in Sl. apply Sl.
        rewrite <- (firstn_skipn (replicas g u)). apply in_or_app. left. exact Hk. }
      destruct (_ && _).
      * pose proof (time_to_next_nonneg (slot * Z.of_nat (length (slots g u))) t). nia.
      * nia.
    + rewrite !map_length, firstn_length. lia.
Qed.

Lemma inv_hand_over : forall ns y t g u y' ns', y_inv ns y -> y_now y = t ->
  hand_over y t g u = Ok (y', ns') -> y_inv (ns ++ ns') y' /\ y_now y' = t.
Proof.
  intros ns y t g u y' ns' I Et H. unfold SystemModel.hand_over in H.
  destruct (find_tag u (g_tags (y_ground y g))) as [tag|]; [|discriminate].
  destruct mac eqn:Em; rewrite <- Em in *.
  - eapply (inv_go_air ns y t g (mkJob u tag false)); auto.
  - destruct (air_times mac t g u) as [l| | |] eqn:A; cbn [rbind] in H; try discriminate.
    injection H as <- <-. rewrite app_nil_r. destruct (post_all_fields (map (fun a => (a, VAir g (mkJob u tag false))) l) y) as (B & _).
    split; [|rewrite B; exact Et]. apply inv_post_all; [exact I|].
    apply air_times_ok in A. destruct A as [A _]. rewrite Forall_forall in *. intros x Hx. apply in_map_iff in Hx.
    destruct Hx as (a & <- & Ha). cbn. specialize (A a Ha). repeat split; auto; lia.
  - destruct (air_times mac t g u) as [l| | |] eqn:A; cbn [rbind] in H; try discriminate.
    injection H as <- <-. rewrite app_nil_r. destruct (post_all_fields (map (fun a => (a, VAir g (mkJob u tag false))) l) y) as (B & _).
    split; [|rewrite B; exact Et]. apply inv_post_all; [exact I|].
    apply air_times_ok in A. destruct A as [A _]. rewrite Forall_forall in *. intros x Hx. apply in_map_iff in Hx.
    destruct Hx as (a & <- & Ha). cbn. specialize (A a Ha). repeat split; auto; lia.
Qed.

Lemma inv_ground_call : forall ns y t g o y' ns', y_inv ns y -> y_now y = t ->
  ground_call y t g o = Ok (y', ns') -> y_inv (ns ++ ns') y' /\ y_now y' = t.
Proof.
  intros ns y t g o y' ns' I Et H. unfold SystemModel.ground_call, on_ground in H.
  destruct (g_step (fits g) (cps g) (y_ground y g) o) as [[[d ev]| | |]|] eqn:St; cbn [rbind] in H; try discriminate.
  pose proof (inv_ground ns y g o d ev I St) as I1. rewrite Et in I1.
  destruct (to_mac ev) as [u|].
  - destruct (hand_over _ t g u) as [[y2 n2]| | |] eqn:Ho in H; cbn [rbind] in H; try discriminate.
    injection H as <- <-. destruct (inv_hand_over _ _ _ _ _ _ _ I1 Et Ho) as [I2 E2].
    rewrite <- app_assoc in I2. cbn [app] in I2. auto.
  - injection H as <- <-. auto.
Qed.

Lemma inv_advance : forall ns y t, y_inv ns y -> y_now y <= t -> Forall (fun x => t <= fst x) (y_queue y) ->
  y_inv ns (mkSys t (y_queue y) (y_ground y) (y_mac y) (y_calls y)).
Proof.
  intros ns y t [Pr Gr Sa So Fu St Ev Ca Me Re Ti Pa] Ht Fo. constructor; cbn; auto.
  - intros s. destruct (Sa s) as (st & A & B & C & D & F). exists st. cbn. repeat split; auto. lia.
  - lia.
  - eapply Forall_impl; [|exact Pa]. cbn; intros; lia.
Qed.

(** Taking the next event. *)
Lemma inv_pop : forall ns y t e q, y_inv ns y -> y_queue y = (t, e) :: q -> (forall s, finish_of s e = None) ->
  y_inv ns (mkSys t q (y_ground y) (y_mac y) (y_calls y)).
Proof.
  intros ns y t e q I Q Fo. assert (I1 : y_inv ns (mkSys t (y_queue y) (y_ground y) (y_mac y) (y_calls y))).
  { apply inv_advance; [exact I| |].
    - pose proof (yi_future _ _ I) as Fu. rewrite Q in Fu. inversion Fu; auto.
    - pose proof (yi_sorted _ _ I) as So. rewrite Q in *. inversion So; subst. constructor; [cbn; lia|].
      eapply Forall_impl; [|exact H2]. unfold by_time. cbn. auto. }
  rewrite Q in I1. destruct I1 as [Pr Gr Sa So Fu St Ev Ca Me Re Ti Pa].
  cbn [y_ground y_mac y_queue y_calls y_now] in *.
  inversion So; subst. inversion Fu; subst. inversion Ev; subst.
  constructor; cbn; auto. intros s. specialize (Sa s). rewrite pend_cons, Fo in Sa. exact Sa.
Qed.

Lemma inv_arrive : forall ns y s u r src proto pow, y_inv ns y -> aired ns (y_now y) s u r src proto pow ->
  let t := y_now y in
  y_inv (ns ++ snd (arrive tx_time rx y t s u r src proto pow)) (fst (arrive tx_time rx y t s u r src proto pow)).
Proof.
  intros ns y s u r src proto pow [Pr Gr Sa So Fu St Ev Ca Me Re Ti Pa] Ar t. unfold arrive. cbn [fst snd].
  set (x := mkRx u t (t + tx_time r u) pow). set (n := NSat t s (OStart t u (tx_time r u) pow)).
  pose proof (tx_pos r u) as Tp.
  destruct (times_snoc ns n y Ti Pa eq_refl) as [Ti' Pa'].
  assert (Oe : Forall on_end (y_queue y)) by (eapply on_end_ok; exact Ev).
  assert (Ro : received_ok (ns ++ [n]) s x src proto).
  { exists r. split; [apply aired_app; exact Ar|reflexivity]. }
  constructor; cbn [y_ground y_mac y_queue y_calls y_now]; auto.
  - apply prefix_silent; [exact Pr|]. repeat constructor.
  - intros g. rewrite station_ops_app, station_events_app. cbn. rewrite !app_nil_r. apply Gr.
  - intros s'. destruct (Sa s') as (st & A & B & C & D & F). unfold sat_state. cbn [y_mac y_now].
    rewrite sat_ops_app, sat_ups_app. unfold n. cbn [sat_ops sat_ups flat_map]. rewrite !app_nil_r.
    destruct (Nat.eqb_spec s s') as [<-|Ne].
    + eexists. rewrite rx_run_app, A. cbn [rx_run rx_step].
      assert (G : (st_now st <=? t) && forallb (fun r0 : reception => t <=? rx_end r0) (st_pending st) = true).
      { apply andb_true_iff. split; [apply Z.leb_le; exact D|]. apply forallb_forall. intros z Hz. rewrite C in Hz.
        apply pend_in in Hz. destruct Hz as (tz & sz & pz & Hz). pose proof (proj1 (Forall_forall _ _) Oe _ Hz) as E.
        cbn in E. subst tz. rewrite Forall_forall in Fu. specialize (Fu _ Hz). cbn in Fu. apply Z.leb_le. exact Fu. }
      rewrite G. split; [reflexivity|]. cbn. rewrite upd_same, B, C. repeat split; auto; [|unfold t; lia].
      symmetry. exact (pend_post_same s x src proto (y_queue y) So Oe).
    + exists st. rewrite app_nil_r, upd_other by congruence. repeat split; auto.
      rewrite pend_post_other; [exact C|]. cbn. rewrite (proj2 (Nat.eqb_neq _ _)) by exact Ne. reflexivity.
  - apply post_sorted; exact So.
  - apply Forall_forall. intros z Hz. apply post_in in Hz. destruct Hz as [->|Hz]; [cbn; unfold t; lia|].
    rewrite Forall_forall in Fu. auto.
  - apply Forall_forall. intros z Hz. apply post_in in Hz. destruct Hz as [->|Hz].
    + split; [reflexivity|exact Ro].
    + rewrite Forall_forall in Ev. apply event_ok_app. auto.
  - intros s'. rewrite sat_ops_app. unfold n. cbn [sat_ops flat_map]. destruct (Nat.eqb_spec s s') as [<-|Ne].
    + rewrite upd_same, map_app, Ca, receptions_app, map_app. reflexivity.
    + rewrite upd_other by congruence. rewrite Ca. cbn [app]. rewrite app_nil_r. reflexivity.
  - intros s' v src' proto' H. destruct (Nat.eq_dec s' s) as [->|Ne].
    + rewrite upd_same in H. apply in_app_or in H. destruct H as [H|[H|[]]].
      * destruct (Me _ _ _ _ H) as (t1 & r1 & pow1 & A). exists t1, r1, pow1. apply aired_app; exact A.
      * injection H as <- <- <-. exists t, r, pow. apply aired_app; exact Ar.
    + rewrite upd_other in H by exact Ne. destruct (Me _ _ _ _ H) as (t1 & r1 & pow1 & A). exists t1, r1, pow1.
      apply aired_app; exact A.
  - intros s' z. rewrite sat_ops_app, receptions_app. intros H. apply in_app_or in H. destruct H as [H|H].
    + destruct (Re s' z H) as (sz & pz & A). exists sz, pz. apply received_ok_app; exact A.
    + unfold n in H. cbn [sat_ops flat_map] in H. destruct (Nat.eqb_spec s s') as [<-|Ne]; cbn in H; [|contradiction].
      destruct H as [<-|[]]. exists src, proto. exact Ro.
Qed.

Lemma ups_of_finish : forall s t s' (l : list Z) (f : Z -> Z * Z),
  sat_ups s (map (fun v => NUp t s' v (fst (f v)) (snd (f v))) l) = if (s' =? s)%nat then l else [].
Proof.
  intros. unfold sat_ups. induction l as [|v l IH]; cbn [map flat_map]; [destruct (s' =? s)%nat; reflexivity|].
  rewrite IH. destruct (s' =? s)%nat; reflexivity.
Qed.

Lemma ops_of_finish : forall t s' (l : list Z) (f : Z -> Z * Z),
  let n := map (fun v => NUp t s' v (fst (f v)) (snd (f v))) l in
  (forall s, sat_ops s n = []) /\ (forall g, station_ops g n = []) /\ (forall g, station_events g n = []).
Proof.
  intros. unfold n. clear n. induction l as [|v l IH]; [repeat split|]. destruct IH as (A & B & C).
  split; [|split]; intros; [apply A|apply B|apply C].
Qed.

Lemma times_many : forall l ns y, StronglySorted Z.le (map note_time ns) ->
  Forall (fun n => note_time n <= y_now (M := M) y) ns -> Forall (fun n => note_time n = y_now y) l ->
  StronglySorted Z.le (map note_time (ns ++ l)) /\ Forall (fun n => note_time n <= y_now y) (ns ++ l).
Proof.
  induction l as [|n l IH]; intros ns y So Pa F; [rewrite app_nil_r; auto|].
  inversion F; subst. destruct (times_snoc ns n y So Pa H1) as [A B].
  destruct (IH (ns ++ [n]) y A B H2) as [C D]. rewrite <- app_assoc in C, D. auto.
Qed.

Lemma inv_finish : forall ns y t s r src proto q y' ns', y_inv ns y -> y_queue y = (t, VFinish s r src proto) :: q ->
  finish rx (mkSys t q (y_ground y) (y_mac y) (y_calls y)) t s r src proto = Ok (y', ns') ->
  y_inv (ns ++ ns') y' /\ y_now y' = t.
Proof.
  intros ns y t s r src proto q y' ns' I Q H. unfold finish in H. cbn [y_mac y_now y_queue y_ground y_calls] in H.
  destruct (mac_finish rx (y_mac y s) r) as [[m up]| | |] eqn:Fi; cbn [rbind] in H; try discriminate.
  injection H as <- <-. split; [|reflexivity].
  set (y1 := mkSys t q (y_ground y) (y_mac y) (y_calls y)).
  assert (I1 : y_inv ns (mkSys t (y_queue y) (y_ground y) (y_mac y) (y_calls y))).
  { apply inv_advance; [exact I| |].
    - pose proof (yi_future _ _ I) as Fu. rewrite Q in Fu. inversion Fu; auto.
    - pose proof (yi_sorted _ _ I) as So. rewrite Q in *. inversion So; subst. constructor; [cbn; lia|].
      eapply Forall_impl; [|exact H2]. unfold by_time. cbn. auto. }
  rewrite Q in I1. destruct I1 as [Pr Gr Sa So Fu St Ev Ca Me Re Ti Pa]. cbn [y_ground y_mac y_queue y_calls y_now] in *.
  apply StronglySorted_inv in So. destruct So as [So Sh].
  pose proof (Forall_inv_tail Fu) as Fu'. pose proof (Forall_inv_tail Ev) as Ev'. apply Forall_inv in Ev.
  set (n0 := NSat t s OFinish).
  match goal with |- context [n0 :: ?x] => set (n1 := x) end.
  destruct (ops_of_finish t s up (report y1 s r src proto)) as (O1 & O2 & O3).
  change (map _ up) with n1 in O1, O2, O3.
  assert (Es : forall s', sat_ops s' (ns ++ n0 :: n1) = sat_ops s' ns ++ if (s =? s')%nat then [OFinish] else []).
  { intros s'. rewrite sat_ops_app. f_equal. change (n0 :: n1) with ([n0] ++ n1). rewrite sat_ops_app, O1, app_nil_r.
    cbn. apply app_nil_r. }
  assert (Er : forall s', receptions (sat_ops s' (ns ++ n0 :: n1)) = receptions (sat_ops s' ns)).
  { intros s'. rewrite Es, receptions_app. destruct (s =? s')%nat; apply app_nil_r. }
  assert (Tn : Forall (fun n => note_time n = t) (n0 :: n1)).
  { constructor; [reflexivity|]. apply Forall_forall. intros n Hn. apply in_map_iff in Hn.
    destruct Hn as (v & <- & _). reflexivity. }
  destruct (times_many (n0 :: n1) ns y1 Ti Pa Tn) as [Ti' Pa'].
  destruct Ev as [Et Rr]. cbn [fst snd] in Et.
  constructor; cbn [y_ground y_mac y_queue y_calls y_now]; auto.
  - apply prefix_silent; [exact Pr|]. constructor; [exact Logic.I|]. apply Forall_forall. intros n Hn. apply in_map_iff in Hn.
    destruct Hn as (v & <- & _). exact Logic.I.
  - intros g. rewrite station_ops_app, station_events_app. change (n0 :: n1) with ([n0] ++ n1).
    rewrite (station_ops_app g [n0]), (station_events_app g [n0]), O2, O3. cbn [station_ops station_events flat_map n0 app].
    rewrite !app_nil_r. apply Gr.
  - intros s'. destruct (Sa s') as (st & A & B & C & D & F). unfold sat_state. cbn [y_mac y_now] in *.
    rewrite Es, sat_ups_app. change (n0 :: n1) with ([n0] ++ n1).
    rewrite (sat_ups_app s' [n0]). cbn [sat_ups flat_map n0 app].
    unfold n1. rewrite (ups_of_finish s' t s up (report y1 s r src proto)).
    rewrite pend_cons in C. cbn [finish_of] in C. destruct (Nat.eqb_spec s s') as [<-|Ne].
    + eexists. rewrite rx_run_app, A. cbn [rx_run rx_step]. rewrite C, B, Fi. cbn [rbind].
      split; [reflexivity|]. cbn. rewrite upd_same. repeat split; auto; [lia|].
      rewrite flat_map_app, F. cbn. rewrite app_nil_r. reflexivity.
    + exists st. rewrite !app_nil_r, upd_other by congruence. repeat split; auto.
  - eapply Forall_impl; [|exact Ev']. intros; apply event_ok_app; assumption.
  - intros s'. rewrite Er. auto.
  - intros s' u src' proto' H. destruct (Me _ _ _ _ H) as (t1 & r1 & pow1 & A). exists t1, r1, pow1. apply aired_app; exact A.
  - intros s' x. rewrite Er. intros H. destruct (Re s' x H) as (sz & pz & A). exists sz, pz. apply received_ok_app; exact A.
Qed.

Lemma inv_step : forall ns y o y' ns', y_inv ns y -> y_step y o = Some (Ok (y', ns')) -> y_inv (ns ++ ns') y'.
Proof.
  assert (CA : forall ns y t g o y' ns', y_inv ns y ->
    call_at h con tx_time rate delay loss success ground_addr fits mac y t g o = Some (Ok (y', ns')) -> y_inv (ns ++ ns') y').
  { intros ns y t g o y' ns' I H. unfold call_at in H.
    destruct ((y_now y <=? t) && forallb (fun e => t <=? fst e) (y_queue y)) eqn:G; [|discriminate].
    apply andb_true_iff in G. destruct G as [G1 G2]. apply Z.leb_le in G1. rewrite forallb_forall in G2.
    apply some_inj in H. eapply inv_ground_call in H; [exact (proj1 H)| |reflexivity].
    apply inv_advance; auto. apply Forall_forall. intros x Hx. apply Z.leb_le. auto. }
  intros ns y o y' ns' I H. destruct o as [t g u p|t g a|t g p|]; cbn [SystemModel.y_step] in H; eauto.
  destruct (y_queue y) as [|[t e] q] eqn:Q; [discriminate|]. apply some_inj in H.
  destruct e as [g j|g j|s u r src proto pow|s r src proto].
  - eapply inv_go_air in H; [exact (proj1 H)| |reflexivity|].
    + eapply inv_pop; eauto.
    + pose proof (yi_events _ _ I) as Ev. rewrite Q in Ev. inversion Ev; auto.
  - destruct (job_index j (g_mac (y_ground y g))) as [k|]; [|discriminate].
    eapply inv_ground_call in H; [exact (proj1 H)| |reflexivity]. eapply inv_pop; eauto.
  - assert (Ar : aired ns t s u r src proto pow).
    { pose proof (yi_events _ _ I) as Ev. rewrite Q in Ev. inversion Ev; auto. }
    assert (I1 : y_inv ns (mkSys t q (y_ground y) (y_mac y) (y_calls y))) by (eapply inv_pop; eauto).
    injection H as <- <-. exact (inv_arrive ns (mkSys t q (y_ground y) (y_mac y) (y_calls y)) s u r src proto pow I1 Ar).
  - eapply inv_finish in H; [exact (proj1 H)|exact I|exact Q].
Qed.

Lemma y_run_snoc : forall ops o y y' ns, y_run y (ops ++ [o]) = Some (Ok (y', ns)) ->
  exists y1 n1 n2, y_run y ops = Some (Ok (y1, n1)) /\ y_step y1 o = Some (Ok (y', n2)) /\ ns = n1 ++ n2.
Proof.
  induction ops as [|x ops IH]; intros o y y' ns H; cbn [app SystemModel.y_run] in H.
  - destruct (y_step y o) as [[[y1 n1]| | |]|] eqn:E; try discriminate. injection H as <- <-.
    exists y, [], n1. rewrite app_nil_r. auto.
  - destruct (y_step y x) as [[[y1 n1]| | |]|] eqn:E; try discriminate.
    destruct (y_run y1 (ops ++ [o])) as [[[y2 n2]| | |]|] eqn:F; try discriminate. injection H as <- <-.
    destruct (IH _ _ _ _ F) as (y3 & n3 & n4 & A & B & ->). exists y3, (n1 ++ n3), n4.
    cbn [SystemModel.y_run]. rewrite E, A. rewrite app_assoc. auto.
Qed.

Lemma y_run_inv : forall ops y ns, y_run (y_init a0 p0 m0) ops = Some (Ok (y, ns)) -> y_inv ns y.
Proof.
  induction ops as [|o ops IH] using rev_ind; intros y ns R.
  - cbn in R. injection R as <- <-. apply y_start.
  - apply y_run_snoc in R. destruct R as (y1 & n1 & n2 & A & B & ->). eapply inv_step; eauto.
Qed.
(** ** Calls from outside *)
Lemma happened_silent : forall l, Forall silent l -> happened l = [].
Proof.
  intros l F. induction F as [|n l S F IH]; [reflexivity|]. unfold happened. cbn [flat_map].
  destruct n; [contradiction| | |]; exact IH.
Qed.

Lemma go_air_happened : forall y t g j y' ns', job_on_air j = false -> go_air y t g j = Ok (y', ns') -> happened ns' = [].
Proof.
  intros y t g j y' ns' N H. apply go_air_cases in H; [|exact N]. destruct H as (k & d & s & _ & _ & _ & C). cbn zeta in C.
  destruct C as [(_ & -> & _)|(_ & -> & _)]; reflexivity.
Qed.

Lemma hand_over_happened : forall y t g u y' ns', hand_over y t g u = Ok (y', ns') -> happened ns' = [].
Proof.
  intros y t g u y' ns' H. unfold SystemModel.hand_over in H. destruct (find_tag u _) as [tag|]; [|discriminate].
  destruct mac eqn:Em; rewrite <- Em in *.
  - eapply (go_air_happened y t g (mkJob u tag false)); eauto.
  - destruct (air_times mac t g u); cbn [rbind] in H; try discriminate. injection H as _ <-. reflexivity.
  - destruct (air_times mac t g u); cbn [rbind] in H; try discriminate. injection H as _ <-. reflexivity.
Qed.

Lemma ground_call_happened : forall y t g o y' ns', ground_call y t g o = Ok (y', ns') ->
  happened ns' = match o with GMac _ => [] | _ => [(t, g, o)] end.
Proof.
  intros y t g o y' ns' H. unfold SystemModel.ground_call in H.
  destruct (on_ground fits mac y g o) as [[[d ev]| | |]|]; cbn [rbind] in H; try discriminate.
  destruct (to_mac ev) as [u|].
  - destruct (hand_over _ t g u) as [[y2 n2]| | |] eqn:Ho in H; cbn [rbind] in H; try discriminate.
    injection H as _ <-. change (NGround t g o ev :: n2) with ([NGround t g o ev] ++ n2).
    rewrite happened_app, (hand_over_happened _ _ _ _ _ _ Ho), app_nil_r. destruct o; reflexivity.
  - injection H as _ <-. destruct o; reflexivity.
Qed.

Lemma run_happened : forall ops y ns, y_run (y_init a0 p0 m0) ops = Some (Ok (y, ns)) -> happened ns = asked ops.
Proof.
  assert (CA : forall (y : sys) t g o y' ns', call_at h con tx_time rate delay loss success ground_addr fits mac y t g o = Some (Ok (y', ns')) ->
    happened ns' = match o with GMac _ => [] | _ => [(t, g, o)] end).
  { intros y t g o y' ns' H. unfold call_at in H. destruct (_ && _); [|discriminate]. apply some_inj in H.
    eapply ground_call_happened; exact H. }
  induction ops as [|o ops IH] using rev_ind; intros y ns R.
  - cbn in R. injection R as <- <-. reflexivity.
  - apply y_run_snoc in R. destruct R as (y1 & n1 & n2 & A & B & ->). rewrite happened_app, asked_app, (IH _ _ A). f_equal.
    destruct o as [t g u p|t g a|t g p|]; cbn [SystemModel.y_step] in B; try (apply CA in B; rewrite B; reflexivity).
    pose proof (y_run_inv _ _ _ A) as I.
    destruct (y_queue y1) as [|[t e] q] eqn:Q; [discriminate|]. apply some_inj in B.
    destruct e as [g j|g j|s u r src proto pow|s r src proto].
    + eapply go_air_happened; [|exact B]. pose proof (yi_events _ _ I) as Ev. rewrite Q in Ev. inversion Ev; auto.
    + destruct (job_index j (g_mac (y_ground y1 g))) as [k|]; [|discriminate].
      apply ground_call_happened in B. exact B.
    + injection B as _ <-. reflexivity.
    + unfold finish in B. destruct (mac_finish rx _ r) as [[m up]| | |]; cbn [rbind] in B; try discriminate.
      injection B as _ <-. apply happened_silent. constructor; [exact Logic.I|]. apply Forall_forall. intros n Hn.
      apply in_map_iff in Hn. destruct Hn as (v & <- & _). exact Logic.I.
Qed.

(** ** What is passed up has been received *)
Definition no_up (n : note) : Prop := match n with NUp _ _ _ _ _ => False | _ => True end.

Lemma go_air_no_up : forall y t g j y' ns', job_on_air j = false -> go_air y t g j = Ok (y', ns') -> Forall no_up ns'.
Proof.
  intros y t g j y' ns' N H. apply go_air_cases in H; [|exact N]. destruct H as (k & d & s & _ & _ & _ & C). cbn zeta in C.
  destruct C as [(_ & -> & _)|(_ & -> & _)]; repeat constructor.
Qed.

Lemma hand_over_no_up : forall y t g u y' ns', hand_over y t g u = Ok (y', ns') -> Forall no_up ns'.
Proof.
  intros y t g u y' ns' H. unfold SystemModel.hand_over in H. destruct (find_tag u _) as [tag|]; [|discriminate].
  destruct mac eqn:Em; rewrite <- Em in *.
  - eapply (go_air_no_up y t g (mkJob u tag false)); eauto.
  - destruct (air_times mac t g u); cbn [rbind] in H; try discriminate. injection H as _ <-. constructor.
  - destruct (air_times mac t g u); cbn [rbind] in H; try discriminate. injection H as _ <-. constructor.
Qed.

Lemma ground_call_no_up : forall y t g o y' ns', ground_call y t g o = Ok (y', ns') -> Forall no_up ns'.
Proof.
  intros y t g o y' ns' H. unfold SystemModel.ground_call in H.
  destruct (on_ground fits mac y g o) as [[[d ev]| | |]|]; cbn [rbind] in H; try discriminate.
  destruct (to_mac ev) as [u|].
  - destruct (hand_over _ t g u) as [[y2 n2]| | |] eqn:Ho in H; cbn [rbind] in H; try discriminate.
    injection H as _ <-. constructor; [exact Logic.I|]. eapply hand_over_no_up; exact Ho.
  - injection H as _ <-. repeat constructor.
Qed.

Lemma step_no_up : forall ns y o y' ns', y_inv ns y -> y_step y o = Some (Ok (y', ns')) ->
  Forall no_up ns' \/ exists t s r src proto q m up, o = YNext /\ y_queue y = (t, VFinish s r src proto) :: q /\
    mac_finish rx (y_mac y s) r = Ok (m, up) /\
    ns' = NSat t s OFinish :: map (fun v => let m := report (mkSys t q (y_ground y) (y_mac y) (y_calls y)) s r src proto v in
                                            NUp t s v (fst m) (snd m)) up /\
    y' = mkSys t q (y_ground y) (upd (y_mac y) s m) (y_calls y).
Proof.
  intros ns y o y' ns' I H.
  assert (CA : forall t g o, call_at h con tx_time rate delay loss success ground_addr fits mac y t g o = Some (Ok (y', ns')) ->
    Forall no_up ns').
  { intros t g o0 H0. unfold call_at in H0. destruct (_ && _); [|discriminate]. apply some_inj in H0.
    eapply ground_call_no_up; exact H0. }
  destruct o as [t g u p|t g a|t g p|]; cbn [SystemModel.y_step] in H; eauto.
  destruct (y_queue y) as [|[t e] q] eqn:Q; [discriminate|]. apply some_inj in H.
  destruct e as [g j|g j|s u r src proto pow|s r src proto].
  - left. eapply go_air_no_up; [|exact H]. pose proof (yi_events _ _ I) as Ev. rewrite Q in Ev. inversion Ev; auto.
  - left. destruct (job_index j (g_mac (y_ground y g))) as [k|]; [|discriminate]. eapply ground_call_no_up; exact H.
  - left. injection H as _ <-. repeat constructor.
  - right. unfold finish in H. cbn [y_mac y_now y_queue y_ground y_calls] in H.
    destruct (mac_finish rx (y_mac y s) r) as [[m up]| | |] eqn:Fi; cbn [rbind] in H; try discriminate.
    injection H as <- <-. exists t, s, r, src, proto, q, m, up. repeat split; auto.
Qed.

Variable bound : reception -> Z.
Hypothesis rx_honest : honest rx m0 bound.

Definition up_ok (ns : list note) (t : Z) (s : nat) (u src proto : Z) : Prop :=
  (exists t1 r1 pow1, aired ns t1 s u r1 src proto pow1) /\
  exists x src2 proto2, rx_uid x = u /\ bound x <= t /\ received_ok ns s x src2 proto2.

Lemma up_ok_app : forall ns n t s u src proto, up_ok ns t s u src proto -> up_ok (ns ++ n) t s u src proto.
Proof.
  intros ns n t s u src proto ((t1 & r1 & pow1 & A) & x & s2 & p2 & B & C & D). split.
  - exists t1, r1, pow1. apply aired_app; exact A.
  - exists x, s2, p2. repeat split; auto. apply received_ok_app; exact D.
Qed.

Lemma inv_sane : forall ns y s, y_inv ns y -> sane (sat_ops s ns).
Proof.
  intros ns y s I. unfold sane. apply Forall_forall. intros x Hx. destruct (yi_received _ _ I s x Hx) as (a & b & r & _ & E).
  pose proof (tx_pos r (rx_uid x)). lia.
Qed.

Lemma run_up : forall ops y ns, y_run (y_init a0 p0 m0) ops = Some (Ok (y, ns)) ->
  forall t s u src proto, In (NUp t s u src proto) ns -> up_ok ns t s u src proto.
Proof.
  induction ops as [|o ops IH] using rev_ind; intros y ns R t s u src proto U.
  - cbn in R. injection R as _ <-. destruct U.
  - pose proof (y_run_inv _ _ _ R) as I'. apply y_run_snoc in R. destruct R as (y1 & n1 & n2 & A & B & ->).
    pose proof (y_run_inv _ _ _ A) as I. apply in_app_or in U. destruct U as [U|U].
    { apply up_ok_app. eapply IH; eauto. }
    destruct (step_no_up _ _ _ _ _ I B) as [F|(t' & s' & r & src' & proto' & q & m & up & -> & Q & Fi & -> & Ey)].
    { rewrite Forall_forall in F. destruct (F _ U). }
    destruct U as [U|U]; [discriminate|]. apply in_map_iff in U. destruct U as (v & Ev & Hv).
    injection Ev as -> -> -> Es Ep.
    (* the reception behind it *)
    pose proof (yi_sat _ _ I s) as (st & Rs & Ms & Ps & _ & _). rewrite Q, pend_cons in Ps. cbn [finish_of] in Ps.
    rewrite Nat.eqb_refl in Ps.
    assert (Rs2 : rx_run rx (rx_init m0) (sat_ops s n1 ++ [OFinish]) =
                  Some (Ok (mkSt (rx_end r) m (pend s q) (st_log st ++ [(r, up)])))).
    { rewrite rx_run_app, Rs. cbn [rx_run rx_step]. rewrite Ps, Ms, Fi. reflexivity. }
    assert (Sa : sane (sat_ops s n1 ++ [OFinish])).
    { pose proof (inv_sane _ _ s I) as S1. unfold sane in *. rewrite receptions_app. apply Forall_app. split; [exact S1|constructor]. }
    destruct (rx_honest _ _ r up u Rs2 Sa) as (x & Hx & Ux & Bx); [cbn; apply in_or_app; right; left; reflexivity|exact Hv|].
    rewrite receptions_app in Hx. cbn in Hx. rewrite app_nil_r in Hx.
    pose proof (yi_events _ _ I) as Evs. rewrite Q in Evs. apply Forall_inv in Evs. destruct Evs as [Et Rr]. cbn [fst snd] in Et.
    apply up_ok_app. split.
    + unfold report in Es, Ep. cbn [y_calls] in *. destruct (u =? rx_uid r) eqn:Eu.
      * apply Z.eqb_eq in Eu. cbn [fst snd] in *. subst. destruct Rr as (r1 & Ar & _). eauto.
      * destruct (find_tag u (y_calls y1 s)) as [[a b]|] eqn:Ft.
        -- apply find_tag_in in Ft. cbn [fst snd] in *. subst. eapply (yi_meta _ _ I). exact Ft.
        -- exfalso. assert (In u (map fst (y_calls y1 s))).
           { rewrite (yi_calls _ _ I s). rewrite <- Ux. apply in_map. exact Hx. }
           apply in_map_iff in H. destruct H as ((u2 & m2) & E2 & H2). cbn in E2. subst u2.
           clear - Ft H2. induction (y_calls y1 s) as [|[w z] l IHl]; [exact H2|]. rewrite find_tag_cons in Ft.
           destruct (w =? u) eqn:E; [discriminate|]. destruct H2 as [H2|H2]; [|auto]. injection H2 as -> _.
           rewrite Z.eqb_refl in E. discriminate.
    + destruct (yi_received _ _ I s x Hx) as (a & b & Rx). exists x, a, b. repeat split; auto. lia.
Qed.

(** ** Back to the sender *)
Hypothesis some_copy : forall g u, (1 <= cps g u)%nat.

Definition sent_in (l : list (Z * nat * gop)) : list Z :=
  flat_map (fun x => match snd x with GSend u _ => [u] | _ => [] end) l.
Definition sent_by (n : note) : list Z := match n with NGround _ _ (GSend u _) _ => [u] | _ => [] end.

Lemma sent_asked : forall ops, sent_in (asked ops) = sent_uids ops.
Proof.
  induction ops as [|o l IH]; [reflexivity|]. change (o :: l) with ([o] ++ l).
  rewrite asked_app. unfold sent_in, sent_uids in *. rewrite !flat_map_app, IH. destruct o; reflexivity.
Qed.

Lemma sent_happened : forall ns, sent_in (happened ns) = flat_map sent_by ns.
Proof.
  induction ns as [|n l IH]; [reflexivity|]. change (n :: l) with ([n] ++ l).
  rewrite happened_app. unfold sent_in in *. rewrite !flat_map_app, IH. destruct n as [t g o ev| | |]; try reflexivity.
  destruct o; reflexivity.
Qed.

Lemma unique_split : forall A B (f : A -> list B) l a x b a' x' b' v, NoDup (flat_map f l) ->
  l = a ++ x :: b -> l = a' ++ x' :: b' -> In v (f x) -> In v (f x') -> a = a' /\ x = x' /\ b = b'.
Proof.
  intros A B f l a. revert l. induction a as [|y a IH]; intros l x b a' x' b' v N E E' I I'.
  - cbn in E. subst l. destruct a' as [|y' a'].
    + cbn in E'. injection E' as <- <-. auto.
    + cbn in E'. injection E' as <- ->. exfalso. cbn [flat_map] in N. eapply nodup_app_disj; [exact N|exact I|].
      apply in_flat_map. exists x'. split; [apply in_or_app; right; left; reflexivity|exact I'].
  - cbn in E. subst l. destruct a' as [|y' a'].
    + cbn in E'. injection E' as -> <-. exfalso. cbn [flat_map] in N. eapply nodup_app_disj; [exact N|exact I'|].
      apply in_flat_map. exists x. split; [apply in_or_app; right; left; reflexivity|exact I].
    + cbn in E'. injection E' as <- E'. cbn [flat_map] in N.
      assert (N2 : NoDup (flat_map f (a ++ x :: b))).
      { clear - N. induction (f y) as [|z l IHl]; [exact N|]. cbn in N. inversion N; auto. }
      destruct (IH _ x b a' x' b' v N2 eq_refl E' I I') as (-> & -> & ->). auto.
Qed.

Lemma station_sends : forall g ns u, In u (sends (station_ops g ns)) -> In u (flat_map sent_by ns).
Proof.
  intros g ns u. induction ns as [|n l IH]; [intros []|]. change (n :: l) with ([n] ++ l).
  rewrite station_ops_app, sends_app, flat_map_app. intros H. apply in_or_app. apply in_app_or in H.
  destruct H as [H|H]; [left|right; auto]. destruct n as [t g' o ev| | |]; try destruct H.
  cbn [station_ops flat_map] in H. destruct (g' =? g)%nat; [|destruct H]. destruct o; cbn in *; tauto.
Qed.

Lemma station_sends_nodup : forall g ns, NoDup (flat_map sent_by ns) -> NoDup (sends (station_ops g ns)).
Proof.
  intros g ns. induction ns as [|n l IH]; intros N; [constructor|]. change (n :: l) with ([n] ++ l) in *.
  rewrite station_ops_app, sends_app. rewrite flat_map_app in N.
  assert (Nl : NoDup (flat_map sent_by l)).
  { clear - N. induction (flat_map sent_by [n]) as [|z w IHl]; [exact N|]. cbn in N. inversion N; auto. }
  specialize (IH Nl). destruct n as [t g' o ev| | |]; try exact IH.
  cbn [station_ops flat_map]. destruct (g' =? g)%nat; [|exact IH]. destruct o as [u p|a|p|k]; try exact IH.
  cbn in *. inversion N; subst. constructor; [|exact IH]. intros H. apply H1. eapply station_sends; exact H.
Qed.

Lemma station_split : forall g ns l1 o l2, station_ops g ns = l1 ++ o :: l2 ->
  exists n1 t ev n2, ns = n1 ++ NGround t g o ev :: n2 /\ station_ops g n1 = l1.
Proof.
  intros g. induction ns as [|n ns IH]; intros l1 o l2 E; [destruct l1; discriminate|].
  assert (Skip : (forall t o ev, n <> NGround t g o ev) ->
    station_ops g (n :: ns) = station_ops g ns ->
    exists n1 t ev n2, n :: ns = n1 ++ NGround t g o ev :: n2 /\ station_ops g n1 = l1).
  { intros Ne Eq. rewrite Eq in E. destruct (IH _ _ _ E) as (n1 & t & ev & n2 & -> & E2).
    exists (n :: n1), t, ev, n2. split; [reflexivity|]. rewrite <- E2. destruct n as [t' g' o' ev'| | |]; try reflexivity.
    cbn [station_ops flat_map]. destruct (Nat.eqb_spec g' g) as [->|]; [|reflexivity]. destruct (Ne t' o' ev'). reflexivity. }
  destruct n as [t g' o' ev| | |]; try (apply Skip; [discriminate|reflexivity]).
  destruct (Nat.eqb_spec g' g) as [->|Ne].
  - unfold station_ops in E. cbn [flat_map] in E. rewrite Nat.eqb_refl in E. fold (station_ops g ns) in E. cbn [app] in E.
    destruct l1 as [|x l1].
    + cbn in E. injection E as -> E. exists [], t, ev, ns. auto.
    + cbn in E. injection E as -> E. destruct (IH _ _ _ E) as (n1 & t2 & ev2 & n2 & -> & E2).
      exists (NGround t g x ev :: n1), t2, ev2, n2. split; [reflexivity|]. cbn [station_ops flat_map].
      rewrite Nat.eqb_refl. cbn. f_equal. exact E2.
  - apply Skip; [congruence|]. unfold station_ops. cbn [flat_map]. rewrite (proj2 (Nat.eqb_neq _ _)) by exact Ne. reflexivity.
Qed.

Lemma event_split : forall g ns e, In e (station_events g ns) ->
  exists n1 t o ev n2, ns = n1 ++ NGround t g o ev :: n2 /\ In e ev.
Proof.
  intros g ns e H. unfold station_events in H. apply in_flat_map in H. destruct H as (n & Hn & He).
  destruct n as [t g' o ev| | |]; try destruct He. destruct (Nat.eqb_spec g' g) as [->|]; [|destruct He].
  apply in_split in Hn. destruct Hn as (n1 & n2 & ->). eauto 10.
Qed.

(** Only Send says yes. *)
Lemma accept_is_send : forall f c d o d' ev u, g_step f c d o = Some (Ok (d', ev)) -> In (EAccept u) ev -> exists p, o = GSend u p.
Proof.
  intros f c d o d' ev u St H.
  assert (TS : forall x y e, g_transmit_start c x = Ok (y, e) -> ~ In (EAccept u) e).
  { intros x y e T. unfold g_transmit_start in T. destruct (negb (g_busy x)); cbn in T; try discriminate.
    destruct (g_queue x); try discriminate. destruct (find_tag z (g_tags x)); try discriminate.
    injection T as <- <-. intros [X|[]]; discriminate. }
  destruct o as [v proto|a|p|k]; cbn [g_step] in St.
  - apply some_inj in St. exists proto. unfold g_send in St. destruct (find_tag v (g_tags d)); [discriminate|].
    destruct (f (g_queue d) v); [destruct (g_busy d)|].
    + injection St as <- <-. destruct H as [H|[]]; congruence.
    + destruct (g_transmit_start c _) as [[d2 e2]| | |] eqn:T in St; cbn in St; try discriminate. injection St as <- <-.
      destruct H as [H|H]; [congruence|]. destruct (TS _ _ _ T H).
    + injection St as <- <-. destruct H as [H|[]]; discriminate.
  - injection St as <- <-. destruct H.
  - injection St as <- <-. destruct H.
  - unfold g_mac_step in St. destruct (nth_error (g_mac d) k) as [j|]; [|discriminate].
    destruct (job_on_air j); apply some_inj in St.
    + unfold g_transmit_complete in St. cbn [g_queue] in St. destruct (g_queue d).
      * injection St as <- <-. destruct H as [H|[]]; discriminate.
      * destruct (g_transmit_start c _) as [[d2 e2]| | |] eqn:T in St; cbn in St; try discriminate. injection St as <- <-.
        destruct H as [H|H]; [discriminate|]. destruct (TS _ _ _ T H).
    + injection St as <- <-. destruct H as [H|[]]; discriminate.
Qed.

Lemma pointing_last : forall ops a,
  last (flat_map (fun o => match o with GRetarget b => [b] | _ => [] end) ops) a = pointing a ops.
Proof.
  induction ops as [|o l IH]; intros a; [reflexivity|]. destruct o as [u p|b|p|k]; cbn [flat_map pointing app]; auto.
  rewrite <- IH. destruct (flat_map _ l) as [|x w]; [reflexivity|].
  change (last (b :: x :: w) a) with (last (x :: w) a). clear. revert x. induction w as [|y w IHw]; intros x; [reflexivity|].
  apply IHw.
Qed.

Lemma note_step : forall ns y n1 t g o ev n2, y_inv ns y -> ns = n1 ++ NGround t g o ev :: n2 ->
  exists d d', g_run (fits g) (cps g) (g_init (a0 g) (p0 g)) (station_ops g n1) = Some (Ok (d, station_events g n1)) /\
    g_step (fits g) (cps g) d o = Some (Ok (d', ev)).
Proof.
  intros ns y n1 t g o ev n2 I E. destruct (yi_prefix _ _ I n1 _ g E) as [d D].
  destruct (yi_prefix _ _ I (n1 ++ [NGround t g o ev]) n2 g) as [d' D']; [rewrite <- app_assoc; exact E|].
  exists d, d'. split; [exact D|]. rewrite station_ops_app, station_events_app, g_run_app, D in D'.
  cbn [station_ops station_events flat_map] in D'. rewrite Nat.eqb_refl in D'. cbn [app g_run] in D'. rewrite app_nil_r in D'.
  destruct (g_step (fits g) (cps g) d o) as [[[d2 e2]| | |]|]; try discriminate. rewrite app_nil_r in D'.
  injection D' as -> D'. apply app_inv_head in D'. subst. reflexivity.
Qed.

Lemma sent_before : forall ns y, y_inv ns y -> NoDup (flat_map sent_by ns) ->
  forall n1 tt g k u tag n2, ns = n1 ++ NGround tt g (GMac k) [EAir u tag] :: n2 ->
  exists m1 m2 t0 p ev, n1 = m1 ++ NGround t0 g (GSend u p) ev :: m2 /\ In (EAccept u) ev /\ t0 <= tt /\
    tg_dst tag = pointing (a0 g) (station_ops g m1) /\ tg_proto tag = u16 p.
Proof.
  intros ns y I N n1 tt g k u tag n2 E.
  assert (N1 : NoDup (flat_map sent_by (n1 ++ [NGround tt g (GMac k) [EAir u tag]]))).
  { replace ns with ((n1 ++ [NGround tt g (GMac k) [EAir u tag]]) ++ n2) in N by (rewrite <- app_assoc; symmetry; exact E).
    rewrite flat_map_app in N. apply nodup_app_l in N. exact N. }
  destruct (yi_prefix _ _ I (n1 ++ [NGround tt g (GMac k) [EAir u tag]]) n2 g) as [d D]; [rewrite <- app_assoc; exact E|].
  assert (So : station_ops g (n1 ++ [NGround tt g (GMac k) [EAir u tag]]) = station_ops g n1 ++ [GMac k]).
  { rewrite station_ops_app. cbn. rewrite Nat.eqb_refl. reflexivity. }
  pose proof (station_sends_nodup g _ N1) as Ns.
  assert (Ia : In (EAir u tag) (station_events g (n1 ++ [NGround tt g (GMac k) [EAir u tag]]))).
  { rewrite station_events_app. apply in_or_app. right. cbn. rewrite Nat.eqb_refl. left; reflexivity. }
  destruct (DeviceProps.destination_of_send _ _ _ _ _ _ _ u tag D Ns Ia) as (l1 & l2 & p & a' & p' & El & Ea & Ep & Etag).
  rewrite So in El. destruct l2 as [|x l2] using rev_ind.
  { apply app_inj_tail in El. destruct El as [_ El]. discriminate. }
  clear IHl2. replace (l1 ++ GSend u p :: l2 ++ [x]) with ((l1 ++ GSend u p :: l2) ++ [x]) in El
    by (rewrite <- app_assoc; reflexivity).
  apply app_inj_tail in El. destruct El as [El _].
  destruct (station_split _ _ _ _ _ El) as (m1 & t0 & ev & m2 & E1 & Em).
  exists m1, m2, t0, p, ev. split; [exact E1|]. split.
  - (* accepted *)
    destruct (c_run (fits g) (cps g) (some_copy g) _ _ _ _ Ns D) as (d0 & tr0 & Eq & C). injection Eq as <- <-.
    assert (Iu : In (EAccept u) (station_events g (n1 ++ [NGround tt g (GMac k) [EAir u tag]]))).
    { pose proof (ci_air _ _ _ _ C u) as Ai. assert (1 <= airs u (station_events g (n1 ++ [NGround tt g (GMac k) [EAir u tag]])))%nat.
      { eapply times_pos; [exact Ia|]. apply Z.eqb_refl. }
      assert (Ih : In u (handed (station_events g (n1 ++ [NGround tt g (GMac k) [EAir u tag]])))).
      { destruct (in_dec Z.eq_dec u (handed (station_events g (n1 ++ [NGround tt g (GMac k) [EAir u tag]])))) as [Y|Nn]; [exact Y|].
        rewrite (occurs_out _ _ Nn) in Ai. lia. }
      assert (Ic : In u (accepted (station_events g (n1 ++ [NGround tt g (GMac k) [EAir u tag]])))).
      { rewrite (ci_fifo _ _ _ _ C). apply in_or_app. left; exact Ih. }
      unfold accepted in Ic. apply in_flat_map in Ic. destruct Ic as (e & He & Hu). destruct e; cbn in Hu; try tauto.
      destruct Hu as [->|[]]. exact He. }
    destruct (event_split _ _ _ Iu) as (q1 & tq & oq & evq & q2 & Eqn & Hq).
    assert (E2 : ns = q1 ++ NGround tq g oq evq :: (q2 ++ n2)).
    { rewrite E. replace (n1 ++ NGround tt g (GMac k) [EAir u tag] :: n2)
        with ((n1 ++ [NGround tt g (GMac k) [EAir u tag]]) ++ n2) by (rewrite <- app_assoc; reflexivity).
      rewrite Eqn, <- app_assoc. reflexivity. }
    destruct (note_step _ _ _ _ _ _ _ _ I E2) as (dq & dq' & _ & Sq).
    destruct (accept_is_send _ _ _ _ _ _ _ Sq Hq) as [pq ->].
    assert (E3 : ns = m1 ++ NGround t0 g (GSend u p) ev :: (m2 ++ NGround tt g (GMac k) [EAir u tag] :: n2)).
    { rewrite E, E1, <- app_assoc. reflexivity. }
    destruct (unique_split _ _ sent_by ns _ _ _ _ _ _ u N E2 E3) as (_ & X & _); cbn; auto.
    injection X as _ _ ->. exact Hq.
  - split.
    + pose proof (yi_times _ _ I) as Ti. rewrite E, E1, <- app_assoc in Ti. cbn [app] in Ti.
      rewrite map_app in Ti. cbn [map note_time] in Ti.
      clear - Ti. induction (map note_time m1) as [|z l IH]; cbn [app] in Ti.
      * apply StronglySorted_inv in Ti. destruct Ti as [_ F]. rewrite Forall_forall in F. apply F.
        rewrite map_app. apply in_or_app. right. left. reflexivity.
      * apply StronglySorted_inv in Ti. apply IH. tauto.
    + subst tag. cbn. rewrite Ea, pointing_last, Em. auto.
Qed.

Lemma delivery : forall ops y ns, NoDup (sent_uids ops) -> y_run (y_init a0 p0 m0) ops = Some (Ok (y, ns)) ->
  forall t s u src proto, In (NUp t s u src proto) ns ->
  exists n1 n2 t0 g p ev, ns = n1 ++ NGround t0 g (GSend u p) ev :: n2 /\ In (EAccept u) ev /\
    src = ground_addr g /\ proto = u16 p /\
    get_satellite_addr h con (pointing (a0 g) (station_ops g n1)) = Ok (Some s) /\
    exists tt, transmits ns tt g u /\ t0 <= tt /\ success tt u g s = true /\
      exists x, rx_uid x = u /\ rx_start x = tt + delay tt g s /\ rx_end x = rx_start x + tx_time (rate g) u /\ bound x <= t.
Proof.
  intros ops y ns N R t s u src proto U. pose proof (y_run_inv _ _ _ R) as I.
  assert (Nn : NoDup (flat_map sent_by ns)).
  { rewrite <- sent_happened, (run_happened _ _ _ R), sent_asked. exact N. }
  destruct (run_up _ _ _ R _ _ _ _ _ U) as ((t1 & r1 & pow1 & A) & x & s2 & p2 & Ux & Bx & rr & Rx & Ex).
  destruct A as (n1 & n2 & tt & g & k & tag & E & -> & -> & _ & Gs & _).
  destruct Rx as (n1' & n2' & tt' & g' & k' & tag' & E' & Es' & _ & -> & Gs' & Et' & Su' & _).
  rewrite Ux in *.
  destruct (sent_before _ _ I Nn _ _ _ _ _ _ _ E) as (m1 & m2 & t0 & p & ev & Em & Ac & Le & Ds & Pr).
  destruct (sent_before _ _ I Nn _ _ _ _ _ _ _ E') as (m1' & m2' & t0' & p' & ev' & Em' & Ac' & Le' & Ds' & Pr').
  assert (F : ns = m1 ++ NGround t0 g (GSend u p) ev :: (m2 ++ NGround tt g (GMac k) [EAir u tag] :: n2)).
  { rewrite E, Em, <- app_assoc. reflexivity. }
  assert (F' : ns = m1' ++ NGround t0' g' (GSend u p') ev' :: (m2' ++ NGround tt' g' (GMac k') [EAir u tag'] :: n2')).
  { rewrite E', Em', <- app_assoc. reflexivity. }
  destruct (unique_split _ _ sent_by ns _ _ _ _ _ _ u Nn F F') as (Xm & X & _); [left; reflexivity|left; reflexivity|].
  injection X as Xt Xg Xp Xe. subst m1' t0' g' p' ev'.
  eexists m1, _, t0, g, p, ev. split; [exact F|]. split; [exact Ac|]. split; [reflexivity|]. split; [exact Pr|].
  split; [rewrite <- Ds; exact Gs|]. exists tt'.
  split; [exists k', tag'; rewrite E'; apply in_or_app; right; left; reflexivity|]. split; [exact Le'|]. split; [exact Su'|].
  exists x. repeat split; auto.
Qed.
(** ** The MAC's jobs are in the event queue *)
Definition is_job (j x : mac_job) : bool := if job_dec x j then true else false.
Definition job_event (g : nat) (j : mac_job) (x : Z * event) : bool :=
  match snd x with VAir g' x' | VDone g' x' => (g' =? g)%nat && is_job j x' | _ => false end.
Definition job_owed (g : nat) (j : mac_job) (x : nat * mac_job) : bool := (fst x =? g)%nat && is_job j (snd x).

(** [owed]: jobs that have no event yet. *)
Definition jobs_ok (y : sys) (owed : list (nat * mac_job)) : Prop := forall g j,
  times (is_job j) (g_mac (y_ground y g)) = (times (job_event g j) (y_queue y) + times (job_owed g j) owed)%nat.

Lemma is_job_refl : forall j, is_job j j = true.
Proof. intros. unfold is_job. destruct (job_dec j j); congruence. Qed.
Lemma is_job_eq : forall j x, is_job j x = true -> x = j.
Proof. intros j x. unfold is_job. destruct (job_dec x j); congruence. Qed.

Lemma job_index_some : forall j l, (1 <= times (is_job j) l)%nat -> exists k, job_index j l = Some k.
Proof.
  induction l as [|x l IH]; intros H; [cbn in H; lia|]. rewrite times_cons in H. unfold is_job at 1 in H. cbn [job_index].
  destruct (job_dec x j); [eauto|]. destruct IH as [k ->]; [lia|]. eauto.
Qed.

Lemma jobs_post_all : forall l (y : sys) owed,
  jobs_ok y (map (fun x => match snd x with VAir g j | VDone g j => (g, j) | _ => (0%nat, mkJob 0 (mkTag sat_default 0 0) false) end) l ++ owed) ->
  Forall (fun x => match snd x with VAir _ _ | VDone _ _ => True | _ => False end) l ->
  jobs_ok (post_all l y) owed.
Proof.
  induction l as [|[t e] l IH]; intros y owed J F; [exact J|]. inversion F; subst. unfold post_all. cbn [fold_left fst snd].
  apply IH; [|assumption]. intros g j. specialize (J g j). cbn [map app] in J. rewrite times_cons in J.
  cbn [add_event y_ground y_queue]. rewrite post_times. cbn [snd] in *. unfold job_event at 2. unfold job_owed at 1 in J.
  cbn [snd] in *. destruct e; try contradiction; cbn [fst snd] in J; lia.
Qed.

Lemma jobs_add_other : forall t e (y : sys) owed, jobs_ok y owed ->
  (forall g j, job_event g j (t, e) = false) -> jobs_ok (add_event t e y) owed.
Proof. intros t e y owed J N g j. cbn [add_event y_ground y_queue]. rewrite post_times, N, (J g j). lia. Qed.

Lemma set_nth_jobs : forall l k j x y, nth_error l k = Some x ->
  (times (is_job j) (set_nth k y l) + (if is_job j x then 1 else 0) = times (is_job j) l + (if is_job j y then 1 else 0))%nat.
Proof. intros. apply times_set. assumption. Qed.

Lemma jobs_go_air : forall y t g j y' ns' owed, job_on_air j = false -> jobs_ok y ((g, j) :: owed) ->
  go_air y t g j = Ok (y', ns') -> jobs_ok y' owed.
Proof.
  intros y t g j y' ns' owed N J H. destruct (go_air_cases _ _ _ _ _ _ H N) as (k & d & s & K & St & G & C). cbn zeta in C.
  apply job_index_nth in K. cbn [g_step] in St. unfold g_mac_step in St. rewrite K, N in St. injection St as <-.
  set (j' := mkJob (job_uid j) (job_tag j) true) in *.
  assert (J1 : forall d, g_mac d = set_nth k j' (g_mac (y_ground y g)) -> jobs_ok (set_ground y g d) ((g, j') :: owed)).
  { intros d E g' x. specialize (J g' x). rewrite times_cons in *. cbn [set_ground y_ground y_queue].
    unfold job_owed at 1 in J. unfold job_owed at 1. cbn [fst snd] in *.
    destruct (Nat.eqb_spec g g') as [<-|Ne].
    - rewrite upd_same, E. pose proof (set_nth_jobs _ k x _ j' K) as X. cbn [andb] in *. lia.
    - rewrite upd_other by congruence. cbn [andb] in *. lia. }
  destruct C as [(_ & _ & ->)|(_ & _ & ->)];
    match goal with |- context [set_ground y g ?d] => specialize (J1 d eq_refl) end.
  - intros g' x. specialize (J1 g' x). cbn [add_event y_ground y_queue set_ground] in *. rewrite !post_times.
    rewrite times_cons in J1. unfold job_owed at 1 in J1. unfold job_event at 2 3. cbn [fst snd] in *. rewrite J1. lia.
  - intros g' x. specialize (J1 g' x). cbn [add_event y_ground y_queue set_ground] in *. rewrite !post_times.
    rewrite times_cons in J1. unfold job_owed at 1 in J1. unfold job_event at 2. cbn [fst snd] in *. rewrite J1. lia.
Qed.

Lemma map_fixed : forall A B (x : B) (l : list A), map (fun _ => x) l = repeat x (length l).
Proof. induction l as [|a l IH]; cbn; congruence. Qed.

Lemma map_rep : forall A B (f : A -> B) x n, map f (repeat x n) = repeat (f x) n.
Proof. induction n as [|n IH]; cbn; congruence. Qed.

Lemma jobs_hand_over : forall y t g u y' ns' tag, find_tag u (g_tags (y_ground y g)) = Some tag ->
  jobs_ok y (repeat (g, mkJob u tag false) (cps g u)) -> hand_over y t g u = Ok (y', ns') -> jobs_ok y' [].
Proof.
  intros y t g u y' ns' tag T J H. unfold SystemModel.hand_over in H. rewrite T in H.
  assert (K : forall l, air_times mac t g u = Ok l ->
    jobs_ok (post_all (map (fun a => (a, VAir g (mkJob u tag false))) l) y) []).
  { intros l A. apply air_times_ok in A. destruct A as [_ A]. apply jobs_post_all.
    - rewrite app_nil_r, map_map. cbn [snd]. rewrite map_fixed, A. exact J.
    - apply Forall_forall. intros x Hx. apply in_map_iff in Hx. destruct Hx as (a & <- & _). exact Logic.I. }
  destruct mac eqn:Em; rewrite <- Em in *.
  - eapply (jobs_go_air y t g (mkJob u tag false)); [reflexivity| |exact H].
    replace (cps g u) with 1%nat in J by (unfold copies; rewrite Em; reflexivity). exact J.
  - destruct (air_times mac t g u) as [l| | |] eqn:A; cbn [rbind] in H; try discriminate. injection H as <- _. auto.
  - destruct (air_times mac t g u) as [l| | |] eqn:A; cbn [rbind] in H; try discriminate. injection H as <- _. auto.
Qed.

(** What a call does to the jobs of its station. *)
Definition left_jobs (d : gdev) (o : gop) : list mac_job :=
  match o with GMac k => remove_nth k (g_mac d) | _ => g_mac d end.
Definition ends_job (d : gdev) (o : gop) : Prop :=
  match o with GMac k => exists j, nth_error (g_mac d) k = Some j /\ job_on_air j = true | _ => True end.

Lemma step_jobs : forall f c d o d' ev, g_step f c d o = Some (Ok (d', ev)) -> ends_job d o ->
  (forall u, airs u ev = 0%nat) /\
  match to_mac ev with
  | None => g_mac d' = left_jobs d o
  | Some u => exists tag, find_tag u (g_tags d') = Some tag /\ g_mac d' = left_jobs d o ++ repeat (mkJob u tag false) (c u)
  end.
Proof.
  intros f c d o d' ev St En.
  assert (TS : forall x y e, g_transmit_start c x = Ok (y, e) -> exists u tag, e = [EHand u] /\
    find_tag u (g_tags y) = Some tag /\ g_mac y = g_mac x ++ repeat (mkJob u tag false) (c u)).
  { intros x y e T. unfold g_transmit_start in T. destruct (negb (g_busy x)); cbn in T; try discriminate.
    destruct (g_queue x) as [|u q]; try discriminate. destruct (find_tag u (g_tags x)) as [tag|] eqn:Ft; try discriminate.
    injection T as <- <-. exists u, tag. cbn. auto. }
  destruct o as [v proto|a|p|k]; cbn [g_step left_jobs] in *.
  - apply some_inj in St. unfold g_send in St. destruct (find_tag v (g_tags d)); [discriminate|].
    destruct (f (g_queue d) v); [destruct (g_busy d)|].
    + injection St as <- <-. split; [reflexivity|]. cbn. reflexivity.
    + destruct (g_transmit_start c _) as [[d2 e2]| | |] eqn:T in St; cbn in St; try discriminate. injection St as <- <-.
      destruct (TS _ _ _ T) as (u & tag & -> & Ft & Gm). split; [reflexivity|]. cbn. exists tag. auto.
    + injection St as <- <-. split; [reflexivity|]. cbn. reflexivity.
  - injection St as <- <-. split; reflexivity.
  - injection St as <- <-. split; reflexivity.
  - destruct En as (j & Nj & Oj). unfold g_mac_step in St. rewrite Nj, Oj in St. apply some_inj in St.
    unfold g_transmit_complete in St. cbn [g_queue g_remote g_power g_tags g_mac g_busy] in St. destruct (g_queue d).
    + injection St as <- <-. split; [reflexivity|]. cbn. reflexivity.
    + destruct (g_transmit_start c _) as [[d2 e2]| | |] eqn:T in St; cbn in St; try discriminate. injection St as <- <-.
      destruct (TS _ _ _ T) as (u & tag & -> & Ft & Gm). split; [reflexivity|]. cbn. exists tag. auto.
Qed.

Lemma jobs_ground_call : forall y t g o y' ns' owed, ends_job (y_ground y g) o ->
  (forall x, times (is_job x) (g_mac (y_ground y g)) = (times (is_job x) (left_jobs (y_ground y g) o) + times (job_owed g x) owed)%nat) ->
  (forall g' x, g' <> g -> times (job_owed g' x) owed = 0%nat) ->
  jobs_ok y owed -> ground_call y t g o = Ok (y', ns') -> jobs_ok y' [].
Proof.
  intros y t g o y' ns' owed En Ow Ot J H. unfold SystemModel.ground_call, on_ground in H.
  destruct (g_step (fits g) (cps g) (y_ground y g) o) as [[[d ev]| | |]|] eqn:St; cbn [rbind] in H; try discriminate.
  destruct (step_jobs _ _ _ _ _ _ St En) as [_ Mj].
  assert (K : forall l, g_mac d = left_jobs (y_ground y g) o ++ l -> jobs_ok (set_ground y g d) (map (fun j => (g, j)) l)).
  { intros l E g' x. cbn [set_ground y_ground y_queue]. specialize (J g' x).
    assert (Tm : times (job_owed g' x) (map (fun j => (g, j)) l) = if (g =? g')%nat then times (is_job x) l else 0%nat).
    { clear. induction l as [|z l IH]; cbn [map]; rewrite ?times_cons, ?times_nil; [destruct (g =? g')%nat; reflexivity|].
      unfold job_owed at 1. cbn [fst snd]. rewrite IH. destruct (g =? g')%nat; cbn [andb]; rewrite ?times_cons; reflexivity. }
    rewrite Tm. destruct (Nat.eqb_spec g g') as [<-|Ne].
    - rewrite upd_same, E, times_app. specialize (Ow x). lia.
    - rewrite upd_other by congruence. rewrite Ot in J by congruence. lia. }
  destruct (to_mac ev) as [u|].
  - destruct Mj as (tag & Ft & Gm). destruct (hand_over _ t g u) as [[y2 n2]| | |] eqn:Ho in H; cbn [rbind] in H; try discriminate.
    injection H as <- _. eapply jobs_hand_over; [| |exact Ho].
    + cbn [set_ground y_ground]. rewrite upd_same. exact Ft.
    + specialize (K _ Gm). rewrite map_rep in K. exact K.
  - injection H as <- _. specialize (K []). rewrite app_nil_r in K. apply K. exact Mj.
Qed.

Lemma owed_head : forall g x j q, times (job_event g x) ((fst (A := Z) j, snd j) :: q) =
  ((if job_event g x j then 1 else 0) + times (job_event g x) q)%nat.
Proof. intros g x [t e] q. apply times_cons. Qed.

Lemma done_ends : forall g j l k, job_index j l = Some k -> forall x,
  times (is_job x) l = (times (is_job x) (remove_nth k l) + times (job_owed g x) [(g, j)])%nat.
Proof.
  intros g j l k K x. apply job_index_nth in K. rewrite (times_nth _ _ _ _ _ K), times_cons, times_nil.
  unfold job_owed. cbn [fst snd]. rewrite Nat.eqb_refl. cbn [andb]. lia.
Qed.

Lemma jobs_pop : forall (y : sys) t e q, y_queue y = (t, e) :: q -> jobs_ok y [] ->
  jobs_ok (mkSys t q (y_ground y) (y_mac y) (y_calls y))
    match e with VAir g j | VDone g j => [(g, j)] | _ => [] end.
Proof.
  intros y t e q Q J g x. specialize (J g x). cbn [y_ground y_queue]. rewrite Q, times_cons, times_nil in J.
  unfold job_event at 1 in J. cbn [snd] in J. destruct e; rewrite ?times_cons, ?times_nil; unfold job_owed; cbn [fst snd]; lia.
Qed.

Lemma jobs_step : forall ns y o y' ns', y_inv ns y -> jobs_ok y [] -> y_step y o = Some (Ok (y', ns')) -> jobs_ok y' [].
Proof.
  intros ns y o y' ns' I J H.
  assert (CA : forall t g o, match o with GMac _ => False | _ => True end ->
    call_at h con tx_time rate delay loss success ground_addr fits mac y t g o = Some (Ok (y', ns')) -> jobs_ok y' []).
  { intros t g o0 No H0. unfold call_at in H0. destruct (_ && _); [|discriminate]. apply some_inj in H0.
    eapply jobs_ground_call; [| | | |exact H0].
    - destruct o0; try exact Logic.I. contradiction.
    - instantiate (1 := []). intros x. destruct o0; [| | |contradiction]; cbn [left_jobs]; rewrite times_nil; cbn [y_ground]; lia.
    - reflexivity.
    - intros g' x. exact (J g' x). }
  destruct o as [t g u p|t g a|t g p|]; cbn [SystemModel.y_step] in H; try (eapply CA; [|exact H]; exact Logic.I).
  destruct (y_queue y) as [|[t e] q] eqn:Q; [discriminate|]. apply some_inj in H.
  pose proof (jobs_pop y t e q Q J) as Jp. pose proof (yi_events _ _ I) as Ev. rewrite Q in Ev. apply Forall_inv in Ev.
  unfold event_ok in Ev. cbn [snd fst] in Ev.
  destruct e as [g j|g j|s u r src proto pow|s r src proto].
  - eapply jobs_go_air; [exact Ev|exact Jp|exact H].
  - destruct (job_index j (g_mac (y_ground y g))) as [k|] eqn:K; [|discriminate].
    eapply jobs_ground_call; [| | |exact Jp|exact H]; cbn [y_ground left_jobs].
    + exists j. split; [apply job_index_nth; exact K|exact Ev].
    + apply done_ends; exact K.
    + intros g' x Ne. rewrite times_cons, times_nil. unfold job_owed. cbn [fst snd].
      rewrite (proj2 (Nat.eqb_neq _ _)) by congruence. reflexivity.
  - injection H as <- _. intros g x. specialize (Jp g x). cbn [arrive fst y_ground y_queue] in *. rewrite post_times.
    unfold job_event at 2. cbn [snd]. lia.
  - unfold finish in H. destruct (mac_finish rx _ r) as [[m up]| | |]; cbn [rbind] in H; try discriminate.
    injection H as <- _. exact Jp.
Qed.

Lemma jobs_run : forall ops y ns, y_run (y_init a0 p0 m0) ops = Some (Ok (y, ns)) -> jobs_ok y [].
Proof.
  induction ops as [|o ops IH] using rev_ind; intros y ns R.
  - cbn in R. injection R as <- _. intros g j. reflexivity.
  - apply y_run_snoc in R. destruct R as (y1 & n1 & n2 & A & B & _).
    eapply jobs_step; [eapply y_run_inv; exact A|eapply IH; exact A|exact B].
Qed.

(** ** Counting frames *)
Definition all_events (ns : list note) : list gevent :=
  flat_map (fun n => match n with NGround _ _ _ ev => ev | _ => [] end) ns.
Definition arriving (u : Z) (q : list (Z * event)) : nat :=
  times (fun x => match snd x with VArrive _ v _ _ _ _ => v =? u | _ => false end) q.
Definition finishing (u : Z) (q : list (Z * event)) : nat :=
  times (fun x => match snd x with VFinish _ r _ _ => rx_uid r =? u | _ => false end) q.

Lemma all_events_app : forall a b, all_events (a ++ b) = all_events a ++ all_events b.
Proof. intros. apply flat_map_app. Qed.
Lemma airs_app : forall u a b, airs u (a ++ b) = (airs u a + airs u b)%nat.
Proof. intros. apply times_app. Qed.
Lemma ups_times : forall u ns, ups u ns = times (fun n => match n with NUp _ _ v _ _ => v =? u | _ => false end) ns.
Proof. reflexivity. Qed.
Lemma lost_times : forall u ns, lost u ns = times (fun n => match n with NDrop _ _ v => v =? u | _ => false end) ns.
Proof. reflexivity. Qed.

(** Frames of [u] that are on their way, got lost or were passed up; [k] of them ended without being passed up. *)
Definition counted (u : Z) (y : sys) (ns : list note) (k : nat) : Prop :=
  (ups u ns + lost u ns + arriving u (y_queue y) + finishing u (y_queue y) + k = airs u (all_events ns))%nat.

Lemma counted_go_air : forall u y ns k t g j y' ns', job_on_air j = false -> counted u y ns k ->
  go_air y t g j = Ok (y', ns') -> counted u y' (ns ++ ns') k.
Proof.
  intros u y ns k t g j y' ns' N C H. destruct (go_air_cases _ _ _ _ _ _ H N) as (k' & d & s & _ & _ & _ & Ca). cbn zeta in Ca.
  unfold counted in *. rewrite all_events_app, airs_app, ups_times, lost_times, !times_app, <- ups_times, <- lost_times.
  destruct Ca as [(_ & -> & ->)|(_ & -> & ->)]; cbn [add_event set_ground y_queue]; unfold arriving, finishing in *;
    rewrite !post_times; cbn [snd all_events flat_map app]; unfold airs at 2; rewrite !times_cons, !times_nil;
    destruct (job_uid j =? u); lia.
Qed.

Lemma counted_hand_over : forall u y ns k t g v y' ns', counted u y ns k -> hand_over y t g v = Ok (y', ns') ->
  counted u y' (ns ++ ns') k.
Proof.
  intros u y ns k t g v y' ns' C H. unfold SystemModel.hand_over in H. destruct (find_tag v _) as [tag|]; [|discriminate].
  assert (K : forall l (y : sys), counted u y ns k -> counted u (post_all (map (fun a => (a, VAir g (mkJob v tag false))) l) y) ns k).
  { clear. induction l as [|a l IH]; intros y C; [exact C|]. unfold post_all. cbn [map fold_left fst snd]. apply IH.
    unfold counted, arriving, finishing in *. cbn [add_event y_queue]. rewrite !post_times. cbn [snd]. lia. }
  destruct mac eqn:Em; rewrite <- Em in *.
  - eapply (counted_go_air u y ns k t g (mkJob v tag false)); [reflexivity|exact C|exact H].
  - destruct (air_times mac t g v) as [l| | |]; cbn [rbind] in H; try discriminate. injection H as <- <-. rewrite app_nil_r. auto.
  - destruct (air_times mac t g v) as [l| | |]; cbn [rbind] in H; try discriminate. injection H as <- <-. rewrite app_nil_r. auto.
Qed.

Lemma counted_ground_call : forall u y ns k t g o y' ns', ends_job (y_ground y g) o -> counted u y ns k ->
  ground_call y t g o = Ok (y', ns') -> counted u y' (ns ++ ns') k.
Proof.
  intros u y ns k t g o y' ns' En C H. unfold SystemModel.ground_call, on_ground in H.
  destruct (g_step (fits g) (cps g) (y_ground y g) o) as [[[d ev]| | |]|] eqn:St; cbn [rbind] in H; try discriminate.
  destruct (step_jobs _ _ _ _ _ _ St En) as [Na _].
  assert (C1 : counted u (set_ground y g d) (ns ++ [NGround t g o ev]) k).
  { unfold counted in *. rewrite all_events_app, airs_app, ups_times, lost_times, !times_app, <- ups_times, <- lost_times.
    cbn [all_events flat_map]. rewrite app_nil_r, Na, !times_cons, !times_nil. cbn [set_ground y_queue]. lia. }
  destruct (to_mac ev) as [v|].
  - destruct (hand_over _ t g v) as [[y2 n2]| | |] eqn:Ho in H; cbn [rbind] in H; try discriminate.
    injection H as <- <-. pose proof (counted_hand_over _ _ _ _ _ _ _ _ _ C1 Ho) as C2. rewrite <- app_assoc in C2. exact C2.
  - injection H as <- <-. exact C1.
Qed.

Definition single : Prop := forall m r m' up, mac_finish rx m r = Ok (m', up) -> up = [] \/ up = [rx_uid r].
Definition always : Prop := forall m r m' up, mac_finish rx m r = Ok (m', up) -> up = [rx_uid r].

Lemma counted_step : single -> forall ns y o y' ns' u k, y_inv ns y -> counted u y ns k -> y_step y o = Some (Ok (y', ns')) ->
  exists k', counted u y' (ns ++ ns') k' /\ (always -> k' = k).
Proof.
  intros Si ns y o y' ns' u k I C H.
  assert (CA : forall t g o, match o with GMac _ => False | _ => True end ->
    call_at h con tx_time rate delay loss success ground_addr fits mac y t g o = Some (Ok (y', ns')) -> counted u y' (ns ++ ns') k).
  { intros t g o0 No H0. unfold call_at in H0. destruct (_ && _); [|discriminate]. apply some_inj in H0.
    eapply counted_ground_call; [| |exact H0]; [destruct o0; try exact Logic.I; contradiction|exact C]. }
  destruct o as [t g v p|t g a|t g p|]; cbn [SystemModel.y_step] in H;
    try (exists k; split; [eapply CA; [|exact H]; exact Logic.I|reflexivity]).
  destruct (y_queue y) as [|[t e] q] eqn:Q; [discriminate|]. apply some_inj in H.
  pose proof (yi_events _ _ I) as Ev. rewrite Q in Ev. apply Forall_inv in Ev. unfold event_ok in Ev. cbn [snd fst] in Ev.
  unfold counted in C. rewrite Q in C. unfold arriving, finishing in C. rewrite !times_cons in C. cbn [snd] in C.
  destruct e as [g j|g j|s v r src proto pow|s r src proto].
  - exists k. split; [|reflexivity]. eapply counted_go_air; [exact Ev| |exact H]. exact C.
  - exists k. split; [|reflexivity]. destruct (job_index j (g_mac (y_ground y g))) as [n|] eqn:K; [|discriminate].
    eapply counted_ground_call; [| |exact H].
    + exists j. cbn [y_ground]. split; [apply job_index_nth; exact K|exact Ev].
    + exact C.
  - exists k. split; [|reflexivity]. injection H as <- <-. unfold counted. cbn [arrive fst snd y_queue].
    rewrite all_events_app, airs_app, ups_times, lost_times, !times_app, <- ups_times, <- lost_times.
    unfold arriving, finishing. rewrite !post_times. cbn [snd rx_uid all_events flat_map airs]. rewrite !times_cons, !times_nil.
    unfold airs at 2. rewrite times_nil. lia.
  - unfold finish in H. cbn [y_mac] in H. destruct (mac_finish rx (y_mac y s) r) as [[m up]| | |] eqn:Fi; cbn [rbind] in H; try discriminate.
    injection H as <- <-. unfold counted. cbn [y_queue].
    assert (Z0 : airs u (all_events (ns ++ NSat t s OFinish :: map (fun v => NUp t s v (fst (report (mkSys t q (y_ground y) (y_mac y) (y_calls y)) s r src proto v)) (snd (report (mkSys t q (y_ground y) (y_mac y) (y_calls y)) s r src proto v))) up)) = airs u (all_events ns)).
    { rewrite all_events_app, airs_app. destruct (Si _ _ _ _ Fi) as [->| ->]; cbn; lia. }
    rewrite Z0, ups_times, lost_times, !times_app, <- ups_times, <- lost_times. unfold arriving, finishing.
    destruct (Si _ _ _ _ Fi) as [->| ->]; cbn [map]; rewrite !times_cons, !times_nil.
    + exists ((if (rx_uid r =? u)%Z then 1 else 0) + k)%nat. split; [lia|]. intros Al. apply Al in Fi. discriminate.
    + exists k. split; [destruct (rx_uid r =? u); lia|reflexivity].
Qed.

Lemma counted_run : single -> forall ops y ns u, y_run (y_init a0 p0 m0) ops = Some (Ok (y, ns)) ->
  exists k, counted u y ns k /\ (always -> k = 0%nat).
Proof.
  intros Si. induction ops as [|o ops IH] using rev_ind; intros y ns u R.
  - cbn in R. injection R as <- <-. exists 0%nat. split; [reflexivity|auto].
  - apply y_run_snoc in R. destruct R as (y1 & n1 & n2 & A & B & ->). destruct (IH _ _ u A) as (k & C & E).
    destruct (counted_step Si _ _ _ _ _ _ _ (y_run_inv _ _ _ A) C B) as (k' & C' & E'). exists k'. split; [exact C'|].
    intros Al. rewrite E', E; auto.
Qed.

(** Frames of a packet come from its sender. *)
Lemma airs_one_station : forall u g ns, (forall g', g' <> g -> airs u (station_events g' ns) = 0%nat) ->
  airs u (all_events ns) = airs u (station_events g ns).
Proof.
  intros u g. induction ns as [|n ns IH]; intros H; [reflexivity|]. change (n :: ns) with ([n] ++ ns) in *.
  rewrite all_events_app, station_events_app, !airs_app.
  rewrite IH; [|intros g' Ne; specialize (H g' Ne); rewrite station_events_app, airs_app in H; lia]. f_equal.
  destruct n as [t g' o ev| | |]; try reflexivity. cbn [all_events station_events flat_map]. rewrite !app_nil_r.
  destruct (Nat.eqb_spec g' g) as [->|Ne]; [reflexivity|]. specialize (H g' Ne). rewrite station_events_app, airs_app in H.
  cbn [station_events flat_map] in H. rewrite Nat.eqb_refl, app_nil_r in H. cbn. lia.
Qed.

Lemma station_inv : forall ops y ns g, NoDup (sent_uids ops) -> y_run (y_init a0 p0 m0) ops = Some (Ok (y, ns)) ->
  c_inv (cps g) (station_ops g ns) (y_ground y g) (station_events g ns).
Proof.
  intros ops y ns g N R. pose proof (y_run_inv _ _ _ R) as I.
  assert (Nn : NoDup (flat_map sent_by ns)) by (rewrite <- sent_happened, (run_happened _ _ _ R), sent_asked; exact N).
  destruct (c_run (fits g) (cps g) (some_copy g) _ _ _ _ (station_sends_nodup g _ Nn) (yi_ground _ _ I g)) as (d & tr & E & C).
  injection E as <- <-. exact C.
Qed.

Lemma airs_bound : forall ops y ns u g, NoDup (sent_uids ops) -> y_run (y_init a0 p0 m0) ops = Some (Ok (y, ns)) ->
  (exists t p, In (t, g, GSend u p) (asked ops)) ->
  airs u (all_events ns) = airs u (station_events g ns) /\ (airs u (all_events ns) <= cps g u)%nat.
Proof.
  intros ops y ns u g N R (t & p & Ha). pose proof (y_run_inv _ _ _ R) as I.
  assert (Nn : NoDup (flat_map sent_by ns)) by (rewrite <- sent_happened, (run_happened _ _ _ R), sent_asked; exact N).
  assert (E : airs u (all_events ns) = airs u (station_events g ns)).
  { apply airs_one_station. intros g' Ne. pose proof (station_inv _ _ _ g' N R) as C.
    pose proof (ci_air _ _ _ _ C u) as Ai. rewrite occurs_out in Ai; [lia|]. intros Hh.
    assert (Hs : In u (sends (station_ops g' ns))).
    { apply (ci_sub _ _ _ _ C). rewrite (ci_fifo _ _ _ _ C). apply in_or_app. left; exact Hh. }
    (* sent by two stations *)
    apply in_flat_map in Hs. destruct Hs as (o & Ho & Hu). destruct o as [v q| | |]; cbn in Hu; try tauto. destruct Hu as [->|[]].
    apply in_split in Ho. destruct Ho as (l1 & l2 & El). destruct (station_split _ _ _ _ _ El) as (n1 & t' & ev & n2 & E1 & _).
    rewrite <- (run_happened _ _ _ R) in Ha. unfold happened in Ha. apply in_flat_map in Ha. destruct Ha as (n & Hn & Hg).
    destruct n as [tn gn on en| | |]; try destruct Hg. destruct on as [un pn| | |]; cbn in Hg; try tauto;
      destruct Hg as [Hg|[]]; try discriminate. injection Hg as -> -> -> ->.
    apply in_split in Hn. destruct Hn as (m1 & m2 & E2).
    destruct (unique_split _ _ sent_by ns _ _ _ _ _ _ u Nn E1 E2) as (_ & X & _); [left; reflexivity|left; reflexivity|].
    injection X as _ Eg _ _. congruence. }
  split; [exact E|]. rewrite E. pose proof (station_inv _ _ _ g N R) as C. pose proof (ci_air _ _ _ _ C u) as Ai.
  pose proof (ci_nodup _ _ _ _ C) as Nd. rewrite (ci_fifo _ _ _ _ C) in Nd. apply nodup_app_l in Nd.
  pose proof (occurs_nodup _ u Nd). nia.
Qed.
(** ** Nothing fails *)
Definition resolves (a : sat_address) : Prop := exists s, get_satellite_addr h con a = Ok (Some s).
(** Whenever a packet is sent, the station points at a satellite that is there. *)
Definition aims_well (ops : list yop) : Prop := forall l1 t g u p l2, ops = l1 ++ YSend t g u p :: l2 ->
  resolves (pointing (a0 g) (orders g l1)).
Definition plan_ok : Prop := forall t g u, exists l, air_times mac t g u = Ok l.
Definition rx_total : Prop := forall m r, exists x, mac_finish rx m r = Ok x.
(** It is enough that the frames that end in a run can be processed. *)
Definition rx_live : Prop := forall ops y ns t s r src proto q, NoDup (sent_uids ops) ->
  y_run (y_init a0 p0 m0) ops = Some (Ok (y, ns)) -> y_queue y = (t, VFinish s r src proto) :: q ->
  exists x, mac_finish rx (y_mac y s) r = Ok x.
Lemma total_live : rx_total -> rx_live.
Proof. intros T ops y ns t s r src proto q _ _ _. apply T. Qed.

Definition no_mac (o : gop) : bool := match o with GMac _ => false | _ => true end.

Lemma orders_station : forall g ns, map snd (filter (fun x => (snd (fst x) =? g)%nat) (happened ns)) = filter no_mac (station_ops g ns).
Proof.
  intros g. induction ns as [|n ns IH]; [reflexivity|]. change (n :: ns) with ([n] ++ ns).
  rewrite happened_app, station_ops_app, !filter_app, map_app, IH. f_equal.
  destruct n as [t g' o ev| | |]; try reflexivity. cbn [station_ops flat_map app]. rewrite app_nil_r.
  destruct o; cbn [happened flat_map app]; cbn; destruct (g' =? g)%nat; reflexivity.
Qed.

Lemma sent_with_no_mac : forall l a p, sent_with a p (filter no_mac l) = sent_with a p l.
Proof. induction l as [|[u q|b|q|k] l IH]; intros; cbn; rewrite ?IH; reflexivity. Qed.

Lemma sent_with_split : forall l a p u tag, In (u, tag) (sent_with a p l) ->
  exists l1 q l2, l = l1 ++ GSend u q :: l2 /\ tg_dst tag = pointing a l1.
Proof.
  induction l as [|o l IH]; intros a p u tag H; [destruct H|]. destruct o as [v q|b|q|k]; cbn [sent_with] in H.
  - destruct H as [H|H].
    + injection H as -> <-. exists [], q, l. auto.
    + destruct (IH _ _ _ _ H) as (l1 & q' & l2 & -> & E). exists (GSend v q :: l1), q', l2. auto.
  - destruct (IH _ _ _ _ H) as (l1 & q' & l2 & -> & E). exists (GRetarget b :: l1), q', l2. auto.
  - destruct (IH _ _ _ _ H) as (l1 & q' & l2 & -> & E). exists (GPower q :: l1), q', l2. auto.
  - destruct (IH _ _ _ _ H) as (l1 & q' & l2 & -> & E). exists (GMac k :: l1), q', l2. auto.
Qed.

Lemma orders_app : forall g a b, orders g (a ++ b) = orders g a ++ orders g b.
Proof. intros. unfold orders. rewrite asked_app, filter_app, map_app. reflexivity. Qed.

Lemma orders_split : forall g ops l1 u q l2, orders g ops = l1 ++ GSend u q :: l2 ->
  exists o1 t o2, ops = o1 ++ YSend t g u q :: o2 /\ orders g o1 = l1.
Proof.
  intros g. induction ops as [|o ops IH]; intros l1 u q l2 E; [destruct l1; discriminate|].
  change (o :: ops) with ([o] ++ ops) in E. rewrite orders_app in E.
  destruct (orders g [o]) as [|x xs] eqn:Eo.
  - cbn in E. destruct (IH _ _ _ _ E) as (o1 & t & o2 & -> & F). exists (o :: o1), t, o2. split; [reflexivity|].
    change (o :: o1) with ([o] ++ o1). rewrite orders_app, Eo, F. reflexivity.
  - assert (xs = [] /\ ((exists t, o = YSend t g u q /\ x = GSend u q) \/ (forall t, o <> YSend t g u q) /\ True)) as [-> Cs].
    { split.
      - destruct o; cbn in Eo; try discriminate; unfold orders in Eo; cbn in Eo; destruct (g0 =? g)%nat; cbn in Eo; congruence.
      - destruct o as [t g' v w| | |]; try (right; split; [intros; discriminate|exact Logic.I]).
        unfold orders in Eo. cbn in Eo. destruct (Nat.eqb_spec g' g) as [->|Ne]; cbn in Eo; [|discriminate].
        destruct (Z.eq_dec v u) as [->|]; [|right; split; [congruence|exact Logic.I]].
        destruct (Z.eq_dec w q) as [->|]; [|right; split; [congruence|exact Logic.I]].
        left. exists t. split; congruence. }
    destruct l1 as [|y1 l1].
    + cbn in E. injection E as -> E. exists [].
      destruct o as [t g' v w|t g' a|t g' p|]; unfold orders in Eo; cbn in Eo; try discriminate;
        destruct (Nat.eqb_spec g' g) as [->|Ne]; cbn in Eo; try discriminate. injection Eo as -> ->.
      exists t, ops. auto.
    + cbn in E. injection E as -> E. destruct (IH _ _ _ _ E) as (o1 & t & o2 & -> & F). exists (o :: o1), t, o2.
      split; [reflexivity|]. change (o :: o1) with ([o] ++ o1). rewrite orders_app, Eo, F. reflexivity.
Qed.

Lemma tags_resolve : forall ops ns y, y_inv ns y -> happened ns = asked ops -> aims_well ops ->
  forall g u tag, In (u, tag) (g_tags (y_ground y g)) \/ (exists b, In (mkJob u tag b) (g_mac (y_ground y g))) -> resolves (tg_dst tag).
Proof.
  intros ops ns y I E W g u tag H.
  assert (Mi : meta_ok (sent_with (a0 g) (p0 g) (station_ops g ns)) (g_init (a0 g) (p0 g)) []) by (repeat split; cbn; tauto).
  destruct (meta_run (fits g) (cps g) (station_ops g ns) _ _ _ _ _ Mi (fun e H => H) (yi_ground _ _ I g)) as (A & B & _).
  assert (K : In (u, tag) (sent_with (a0 g) (p0 g) (station_ops g ns))).
  { destruct H as [H|[b H]]; [apply A; exact H|]. apply B in H. exact H. }
  rewrite <- sent_with_no_mac, <- orders_station, E in K. fold (orders g ops) in K.
  destruct (sent_with_split _ _ _ _ _ K) as (l1 & q & l2 & Eo & Ed). destruct (orders_split _ _ _ _ _ _ Eo) as (o1 & t & o2 & Ep & Eq).
  rewrite Ed, <- Eq. eapply W. exact Ep.
Qed.

Lemma transmit_ok : forall t u rt g dst proto pow, resolves dst -> exists x,
  transmit2sat h tx_time (delay t) (loss t) (Some (success t u)) ground_addr (mkGS (Some con) []) u rt g dst proto pow = Ok x.
Proof.
  intros t u rt g dst proto pow [s S]. unfold transmit2sat. cbn [gs_con]. rewrite S. cbn [rbind].
  destruct (gs_succeeds _ _ _); eauto.
Qed.

Lemma go_air_ok : forall y t g j, job_on_air j = false -> In j (g_mac (y_ground y g)) -> resolves (tg_dst (job_tag j)) ->
  exists x, go_air y t g j = Ok x.
Proof.
  intros y t g j N Hj Rs. unfold SystemModel.go_air, on_ground.
  destruct (job_index_some j (g_mac (y_ground y g))) as [k K]; [eapply times_pos; [exact Hj|apply is_job_refl]|].
  rewrite K. apply job_index_nth in K. cbn [g_step]. unfold g_mac_step. rewrite K, N.
  destruct (transmit_ok t (job_uid j) (rate g) g (tg_dst (job_tag j)) (tg_proto (job_tag j)) (tg_power (job_tag j)) Rs) as [[tx outs] ->].
  cbn [rbind]. eauto.
Qed.

Lemma hand_over_ok : forall y t g u tag, plan_ok -> find_tag u (g_tags (y_ground y g)) = Some tag ->
  In (mkJob u tag false) (g_mac (y_ground y g)) -> resolves (tg_dst tag) -> exists x, hand_over y t g u = Ok x.
Proof.
  intros y t g u tag Pl T Hj Rs. unfold SystemModel.hand_over. rewrite T. destruct (Pl t g u) as [l L].
  destruct mac eqn:Em; rewrite <- Em in *.
  - apply go_air_ok; auto.
  - rewrite L. cbn [rbind]. eauto.
  - rewrite L. cbn [rbind]. eauto.
Qed.

Lemma ground_call_ok : forall ops ns y t g o r, plan_ok -> y_inv ns y -> y_now y = t -> ends_job (y_ground y g) o ->
  g_step (fits g) (cps g) (y_ground y g) o = Some (Ok r) ->
  happened (ns ++ [NGround t g o (snd r)]) = asked ops -> aims_well ops -> exists x, ground_call y t g o = Ok x.
Proof.
  intros ops ns y t g o [d ev] Pl I Et En St Ha W. unfold SystemModel.ground_call, on_ground. rewrite St. cbn [rbind snd] in *.
  pose proof (inv_ground ns y g o d ev I St) as I1. rewrite Et in I1.
  destruct (step_jobs _ _ _ _ _ _ St En) as [_ Mj]. destruct (to_mac ev) as [u|]; [|eauto].
  destruct Mj as (tag & Ft & Gm).
  destruct (hand_over_ok (set_ground y g d) t g u tag Pl) as [[y2 n2] H].
  - cbn [set_ground y_ground]. rewrite upd_same. exact Ft.
  - cbn [set_ground y_ground]. rewrite upd_same, Gm. apply in_or_app. right. specialize (some_copy g u).
    destruct (cps g u); [lia|left; reflexivity].
  - eapply (tags_resolve ops _ _ I1 Ha W g u). left. cbn [set_ground y_ground]. rewrite upd_same. apply find_tag_in. exact Ft.
  - rewrite H. cbn [rbind]. eauto.
Qed.

Lemma in_asked_snoc : forall ops t g o, asked (ops ++ [match o with GSend u p => YSend t g u p | GRetarget a => YRetarget t g a
    | GPower p => YPower t g p | GMac _ => YNext end]) = asked ops ++ match o with GMac _ => [] | _ => [(t, g, o)] end.
Proof. intros. rewrite asked_app. destruct o; reflexivity. Qed.

Lemma aims_prefix : forall a b, aims_well (a ++ b) -> aims_well a.
Proof. intros a b W l1 t g u p l2 E. eapply (W l1 t g u p (l2 ++ b)). rewrite E, <- app_assoc. reflexivity. Qed.

Lemma safe_step : plan_ok -> rx_live -> forall ops o y ns r, NoDup (sent_uids (ops ++ [o])) -> aims_well (ops ++ [o]) ->
  y_run (y_init a0 p0 m0) ops = Some (Ok (y, ns)) -> y_step y o = Some r -> exists x, r = Ok x.
Proof.
  intros Pl Rt ops o y ns r N W R H.
  pose proof (y_run_inv _ _ _ R) as I. pose proof (run_happened _ _ _ R) as Ha. pose proof (jobs_run _ _ _ R) as J.
  assert (N0 : NoDup (sent_uids ops)). { unfold sent_uids in N. rewrite flat_map_app in N. eapply nodup_app_l; exact N. }
  assert (CA : forall t g o', no_mac o' = true -> o = match o' with GSend u p => YSend t g u p | GRetarget a => YRetarget t g a
      | GPower p => YPower t g p | GMac _ => YNext end ->
    call_at h con tx_time rate delay loss success ground_addr fits mac y t g o' = Some r -> exists x, r = Ok x).
  { intros t g o' No Eo H0. unfold call_at in H0.
    destruct ((y_now y <=? t) && forallb (fun e => t <=? fst e) (y_queue y)) eqn:G; [|discriminate]. apply some_inj in H0. subst r.
    apply andb_true_iff in G. destruct G as [G1 G2]. apply Z.leb_le in G1. rewrite forallb_forall in G2.
    assert (I1 : y_inv ns (mkSys t (y_queue y) (y_ground y) (y_mac y) (y_calls y))).
    { apply inv_advance; auto. apply Forall_forall. intros x Hx. apply Z.leb_le. auto. }
    assert (Sk : exists z, g_step (fits g) (cps g) (y_ground y g) o' = Some z) by (destruct o'; try discriminate; cbn; eauto).
    destruct Sk as [z Sk].
    destruct (c_step (fits g) (cps g) (some_copy g) _ _ _ o' z (station_inv _ _ _ g N0 R)) as (d & ev & -> & _).
    - intros u p -> Hu. apply station_sends in Hu. rewrite <- sent_happened, Ha, sent_asked in Hu. subst o.
      unfold sent_uids in N. rewrite flat_map_app in N. eapply nodup_app_disj; [exact N|exact Hu|left; reflexivity].
    - exact Sk.
    - eapply (ground_call_ok (ops ++ [o]) ns _ t g o' (d, ev) Pl I1 eq_refl); [| |  |exact W].
      + destruct o'; try exact Logic.I. discriminate.
      + exact Sk.
      + rewrite happened_app, Ha, Eo, in_asked_snoc. f_equal. destruct o'; reflexivity. }
  destruct o as [t g u p|t g a|t g p|]; cbn [SystemModel.y_step] in H.
  - eapply (CA t g (GSend u p)); auto.
  - eapply (CA t g (GRetarget a)); auto.
  - eapply (CA t g (GPower p)); auto.
  - destruct (y_queue y) as [|[t e] q] eqn:Q; [discriminate|]. apply some_inj in H. subst r.
    pose proof (yi_events _ _ I) as Ev. rewrite Q in Ev. apply Forall_inv in Ev. unfold event_ok in Ev. cbn [snd fst] in Ev.
    assert (Wo : aims_well ops) by (eapply aims_prefix; exact W).
    destruct e as [g j|g j|s u rt src proto pow|s r src proto].
    + assert (Hj : In j (g_mac (y_ground y g))).
      { specialize (J g j). rewrite Q, times_cons, times_nil in J. unfold job_event at 1 in J. cbn [snd] in J.
        rewrite Nat.eqb_refl, is_job_refl in J. cbn [andb] in J.
        destruct (times_in _ (is_job j) (g_mac (y_ground y g))) as (x & Hx & Ex); [lia|]. apply is_job_eq in Ex. subst. exact Hx. }
      apply go_air_ok; [exact Ev|exact Hj|].
      eapply (tags_resolve ops _ _ I Ha Wo g (job_uid j) (job_tag j)). right. exists (job_on_air j). destruct j; exact Hj.
    + destruct (job_index_some j (g_mac (y_ground y g))) as [k K].
      { specialize (J g j). rewrite Q, times_cons, times_nil in J. unfold job_event at 1 in J. cbn [snd] in J.
        rewrite Nat.eqb_refl, is_job_refl in J. cbn [andb] in J. lia. }
      rewrite K. assert (I1 : y_inv ns (mkSys t q (y_ground y) (y_mac y) (y_calls y))) by (eapply inv_pop; eauto).
      pose proof (job_index_nth _ _ _ K) as Kn.
      assert (Sk : exists z, g_step (fits g) (cps g) (y_ground y g) (GMac k) = Some z).
      { cbn [g_step]. unfold g_mac_step. rewrite Kn. destruct (job_on_air j); eauto. }
      destruct Sk as [z Sk].
      destruct (c_step (fits g) (cps g) (some_copy g) _ _ _ (GMac k) z (station_inv _ _ _ g N0 R)) as (d & ev & -> & _);
        [discriminate|exact Sk|].
      eapply (ground_call_ok ops ns _ t g (GMac k) (d, ev) Pl I1 eq_refl); [| | |exact Wo].
      * exists j. auto.
      * exact Sk.
      * rewrite happened_app, Ha. cbn. rewrite app_nil_r. reflexivity.
    + eauto.
    + unfold finish. cbn [y_mac]. destruct (Rt _ _ _ _ _ _ _ _ _ N0 R Q) as [[m up] ->]. cbn [rbind]. eauto.
Qed.

Lemma y_run_app : forall a b y, y_run y (a ++ b) =
  match y_run y a with
  | Some (Ok (y1, n1)) => match y_run y1 b with Some (Ok (y2, n2)) => Some (Ok (y2, n1 ++ n2)) | x => x end
  | x => x
  end.
Proof.
  induction a as [|o a IH]; intros b y; cbn [app SystemModel.y_run].
  - destruct (y_run y b) as [[[y2 n2]| | |]|]; reflexivity.
  - destruct (y_step y o) as [[[y1 n1]| | |]|]; try reflexivity. rewrite IH.
    destruct (y_run y1 a) as [[[y2 n2]| | |]|]; try reflexivity.
    destruct (y_run y2 b) as [[[y3 n3]| | |]|]; try reflexivity. rewrite app_assoc. reflexivity.
Qed.

Lemma safe_run : plan_ok -> rx_live -> forall ops r, NoDup (sent_uids ops) -> aims_well ops ->
  y_run (y_init a0 p0 m0) ops = Some r -> exists x, r = Ok x.
Proof.
  intros Pl Rt. induction ops as [|o ops IH] using rev_ind; intros r N W R.
  - cbn in R. injection R as <-. eauto.
  - assert (N0 : NoDup (sent_uids ops)). { unfold sent_uids in N. rewrite flat_map_app in N. eapply nodup_app_l; exact N. }
    rewrite y_run_app in R. destruct (y_run (y_init a0 p0 m0) ops) as [x|] eqn:E; [|discriminate].
    destruct (IH x N0 (aims_prefix _ _ W) eq_refl) as [[y1 n1] ->]. cbn [SystemModel.y_run] in R.
    destruct (y_step y1 o) as [z|] eqn:St; [|discriminate].
    destruct (safe_step Pl Rt _ _ _ _ _ N W E St) as [[y2 n2] ->]. injection R as <-. eauto.
Qed.

(** ** Everything settles *)
Definition event_load (x : Z * event) : nat := match snd x with VAir _ _ => 4 | VDone _ _ => 1 | VArrive _ _ _ _ _ _ => 2 | VFinish _ _ _ _ => 1 end.
Definition queue_load (q : list (Z * event)) : nat := fold_right (fun x n => event_load x + n)%nat 0%nat q.
Definition backlog (g : nat) (d : gdev) : nat := fold_right (fun u n => (4 * cps g u + 1) + n)%nat 0%nat (g_queue d).
Definition sum_over (l : list nat) (f : nat -> nat) : nat := fold_right (fun g n => f g + n)%nat 0%nat l.
Definition load (stations : list nat) (y : sys) : nat :=
  (queue_load (y_queue y) + sum_over stations (fun g => backlog g (y_ground y g)))%nat.

Lemma queue_load_post : forall t e q, queue_load (post t e q) = (event_load (t, e) + queue_load q)%nat.
Proof.
  induction q as [|x q IH]; [reflexivity|]. cbn [post]. destruct (fst x <=? t); cbn [queue_load fold_right]; [|reflexivity].
  fold (queue_load (post t e q)). fold (queue_load q). rewrite IH. lia.
Qed.

Lemma sum_other : forall l f g x, ~ In g l -> sum_over l (upd f g x) = sum_over l f.
Proof.
  induction l as [|z l IH]; intros f g x N; [reflexivity|]. cbn [sum_over fold_right]. fold (sum_over l (upd f g x)). fold (sum_over l f).
  rewrite IH by (intros H; apply N; right; exact H). rewrite upd_other; [reflexivity|]. intros ->. apply N. left; reflexivity.
Qed.

Lemma sum_upd : forall l f g x, NoDup l -> In g l -> (sum_over l (upd f g x) + f g = sum_over l f + x)%nat.
Proof.
  induction l as [|z l IH]; intros f g x N H; [destruct H|]. cbn [sum_over fold_right]. fold (sum_over l (upd f g x)). fold (sum_over l f).
  inversion N; subst. destruct (Nat.eq_dec z g) as [->|Ne].
  - rewrite upd_same, sum_other by assumption. lia.
  - rewrite upd_other by exact Ne. destruct H as [H|H]; [congruence|]. specialize (IH f g x H3 H). lia.
Qed.

Lemma sum_ext : forall l f g, (forall x, f x = g x) -> sum_over l f = sum_over l g.
Proof. intros l f g E. induction l as [|z l IH]; [reflexivity|]. cbn [sum_over fold_right]. fold (sum_over l f). fold (sum_over l g). rewrite IH, E. reflexivity. Qed.

Lemma backlog_upd : forall (y : sys) g d x, backlog x (upd (y_ground y) g d x) = upd (fun g => backlog g (y_ground y g)) g (backlog g d) x.
Proof. intros. unfold upd. destruct (Nat.eqb_spec x g) as [->|]; reflexivity. Qed.

Lemma load_set : forall l (y : sys) g d, NoDup l -> In g l ->
  (load l (set_ground y g d) + backlog g (y_ground y g) = load l y + backlog g d)%nat.
Proof.
  intros l y g d N H. unfold load. cbn [set_ground y_queue y_ground].
  rewrite (sum_ext l _ (upd (fun g => backlog g (y_ground y g)) g (backlog g d))) by (intros; apply backlog_upd).
  pose proof (sum_upd l (fun g => backlog g (y_ground y g)) g (backlog g d) N H). cbn beta in H0. lia.
Qed.

Lemma load_set_same : forall l (y : sys) g d, g_queue d = g_queue (y_ground y g) -> load l (set_ground y g d) = load l y.
Proof.
  intros l y g d E. unfold load. cbn [set_ground y_queue y_ground]. f_equal. apply sum_ext. intros x. unfold upd.
  destruct (Nat.eqb_spec x g) as [->|]; [|reflexivity]. unfold backlog. rewrite E. reflexivity.
Qed.

Lemma load_add : forall l t e (y : sys), load l (add_event t e y) = (event_load (t, e) + load l y)%nat.
Proof. intros. unfold load. cbn [add_event y_queue y_ground]. rewrite queue_load_post. lia. Qed.

Lemma load_go_air : forall l y t g j y' ns', job_on_air j = false -> go_air y t g j = Ok (y', ns') -> (load l y' <= load l y + 3)%nat.
Proof.
  intros l y t g j y' ns' N H. destruct (go_air_cases _ _ _ _ _ _ H N) as (k & d & s & K & St & G & C). cbn zeta in C.
  assert (E : g_queue d = g_queue (y_ground y g)).
  { apply job_index_nth in K. cbn [g_step] in St. unfold g_mac_step in St. rewrite K, N in St. injection St as <-. reflexivity. }
  destruct C as [(_ & _ & ->)|(_ & _ & ->)]; rewrite !load_add, load_set_same by exact E; cbn; lia.
Qed.

Lemma load_hand_over : forall l y t g u y' ns', hand_over y t g u = Ok (y', ns') -> (load l y' <= load l y + 4 * cps g u)%nat.
Proof.
  intros l y t g u y' ns' H. unfold SystemModel.hand_over in H. destruct (find_tag u _) as [tag|]; [|discriminate].
  assert (K : forall ts (y : sys), load l (post_all (map (fun a => (a, VAir g (mkJob u tag false))) ts) y) = (4 * length ts + load l y)%nat).
  { clear H. clear y. induction ts as [|a ts IH]; intros y; [reflexivity|]. unfold post_all in *. cbn [map fold_left fst snd length].
    rewrite IH, load_add. cbn [event_load snd]. lia. }
  destruct mac eqn:Em; rewrite <- Em in *.
  - apply (load_go_air l) in H; [|reflexivity]. specialize (some_copy g u). lia.
  - destruct (air_times mac t g u) as [ts| | |] eqn:A; cbn [rbind] in H; try discriminate. injection H as <- _.
    apply air_times_ok in A. destruct A as [_ A]. rewrite K, A. lia.
  - destruct (air_times mac t g u) as [ts| | |] eqn:A; cbn [rbind] in H; try discriminate. injection H as <- _.
    apply air_times_ok in A. destruct A as [_ A]. rewrite K, A. lia.
Qed.

Lemma load_done : forall l y t g k y' ns', NoDup l -> In g l -> ends_job (y_ground y g) (GMac k) ->
  ground_call y t g (GMac k) = Ok (y', ns') -> (load l y' <= load l y)%nat.
Proof.
  intros l y t g k y' ns' N Hg (j & Nj & Oj) H. unfold SystemModel.ground_call, on_ground in H.
  destruct (g_step (fits g) (cps g) (y_ground y g) (GMac k)) as [[[d ev]| | |]|] eqn:St; cbn [rbind] in H; try discriminate.
  pose proof (load_set l y g d N Hg) as Ls. cbn [g_step] in St. unfold g_mac_step in St. rewrite Nj, Oj in St. apply some_inj in St.
  unfold g_transmit_complete in St. cbn [g_queue g_remote g_power g_tags g_mac g_busy] in St.
  destruct (g_queue (y_ground y g)) as [|w q] eqn:Q.
  - injection St as <- <-. cbn in H. injection H as <- _. unfold backlog in Ls at 1. rewrite Q in Ls. cbn [backlog g_queue fold_right] in Ls. lia.
  - unfold g_transmit_start in St. cbn [negb g_busy assert_ rbind g_queue g_tags g_remote g_power g_mac] in St.
    destruct (find_tag w _) as [tag|]; [|discriminate]. cbn [rbind] in St. injection St as <- <-. cbn [to_mac flat_map app] in H.
    destruct (hand_over _ t g w) as [[y2 n2]| | |] eqn:Ho in H; cbn [rbind] in H; try discriminate. injection H as <- _.
    apply (load_hand_over l) in Ho. unfold backlog in Ls at 1. rewrite Q in Ls. cbn [backlog g_queue fold_right] in Ls.
    fold (fold_right (fun u n => (4 * cps g u + 1) + n)%nat 0%nat q) in Ls. unfold backlog in Ls. cbn [g_queue] in Ls. lia.
Qed.

Definition stations_of (ops : list yop) : list nat := nodup Nat.eq_dec (map (fun x => snd (fst x)) (asked ops)).

Lemma job_station : forall ops y ns g j, NoDup (sent_uids ops) -> y_run (y_init a0 p0 m0) ops = Some (Ok (y, ns)) ->
  In j (g_mac (y_ground y g)) -> In g (stations_of ops).
Proof.
  intros ops y ns g j N R Hj. pose proof (station_inv _ _ _ g N R) as C.
  assert (Hs : In (job_uid j) (sends (station_ops g ns))).
  { apply (ci_sub _ _ _ _ C). rewrite (ci_fifo _ _ _ _ C). apply in_or_app. left. apply (ci_jobs _ _ _ _ C). exact Hj. }
  apply in_flat_map in Hs. destruct Hs as (o & Ho & Hu). destruct o as [v q| | |]; cbn in Hu; try tauto.
  apply in_split in Ho. destruct Ho as (l1 & l2 & El). destruct (station_split _ _ _ _ _ El) as (n1 & t' & ev & n2 & E1 & _).
  unfold stations_of. apply nodup_In. apply in_map_iff. exists (t', g, GSend v q). split; [reflexivity|].
  rewrite <- (run_happened _ _ _ R), E1, happened_app. apply in_or_app. right. left. reflexivity.
Qed.

Lemma load_step : forall ops y ns y' ns', NoDup (sent_uids ops) -> y_run (y_init a0 p0 m0) ops = Some (Ok (y, ns)) ->
  y_step y YNext = Some (Ok (y', ns')) -> (load (stations_of ops) y' < load (stations_of ops) y)%nat.
Proof.
  intros ops y ns y' ns' N R H. pose proof (y_run_inv _ _ _ R) as I. set (l := stations_of ops). cbn [SystemModel.y_step] in H.
  destruct (y_queue y) as [|[t e] q] eqn:Q; [discriminate|]. apply some_inj in H.
  pose proof (yi_events _ _ I) as Ev. rewrite Q in Ev. apply Forall_inv in Ev. unfold event_ok in Ev. cbn [snd fst] in Ev.
  assert (L : load l y = (event_load (t, e) + load l (mkSys t q (y_ground y) (y_mac y) (y_calls y)))%nat).
  { unfold load. rewrite Q. cbn [y_queue y_ground queue_load fold_right]. fold (queue_load q). lia. }
  destruct e as [g j|g j|s u rt src proto pow|s r src proto]; cbn [event_load snd] in L.
  - apply (load_go_air l) in H; [|exact Ev]. lia.
  - destruct (job_index j (g_mac (y_ground y g))) as [k|] eqn:K; [|discriminate]. apply job_index_nth in K.
    apply (load_done l) in H; [lia| | |].
    + apply NoDup_nodup.
    + eapply job_station; [exact N|exact R|]. eapply nth_error_In; exact K.
    + exists j. auto.
  - injection H as <- _. unfold load in *. cbn [arrive fst y_queue y_ground] in *. rewrite queue_load_post. cbn [event_load snd]. lia.
  - unfold finish in H. destruct (mac_finish rx _ r) as [[m up]| | |]; cbn [rbind] in H; try discriminate.
    injection H as <- _. unfold load in *. cbn [y_queue y_ground] in *. lia.
Qed.

Lemma settles : plan_ok -> rx_live -> forall n ops y ns, load (stations_of ops) y = n -> NoDup (sent_uids ops) -> aims_well ops ->
  y_run (y_init a0 p0 m0) ops = Some (Ok (y, ns)) ->
  exists k y' ns', y_run (y_init a0 p0 m0) (ops ++ repeat YNext k) = Some (Ok (y', ns')) /\ y_queue y' = [].
Proof.
  intros Pl Rt. induction n as [n IH] using lt_wf_ind; intros ops y ns L N W R.
  destruct (y_queue y) as [|x q] eqn:Q.
  - exists 0%nat, y, ns. cbn [repeat]. rewrite app_nil_r. auto.
  - destruct (y_step y YNext) as [r|] eqn:St.
    2:{ cbn [SystemModel.y_step] in St. rewrite Q in St. destruct x. discriminate. }
    assert (N1 : NoDup (sent_uids (ops ++ [YNext]))) by (unfold sent_uids; rewrite flat_map_app; cbn; rewrite app_nil_r; exact N).
    assert (W1 : aims_well (ops ++ [YNext])).
    { intros l1 t g u p l2 E. destruct l2 as [|z l2] using rev_ind.
      - apply app_inj_tail in E. destruct E as [_ E]. discriminate.
      - clear IHl2. replace (l1 ++ YSend t g u p :: l2 ++ [z]) with ((l1 ++ YSend t g u p :: l2) ++ [z]) in E
          by (rewrite <- app_assoc; reflexivity).
        apply app_inj_tail in E. destruct E as [E _]. eapply W. exact E. }
    destruct (safe_step Pl Rt _ _ _ _ _ N1 W1 R St) as [[y1 n1] ->].
    assert (R1 : y_run (y_init a0 p0 m0) (ops ++ [YNext]) = Some (Ok (y1, ns ++ n1))).
    { rewrite y_run_app, R. cbn [SystemModel.y_run]. rewrite St, app_nil_r. reflexivity. }
    assert (Es : stations_of (ops ++ [YNext]) = stations_of ops) by (unfold stations_of; rewrite asked_app; cbn; rewrite app_nil_r; reflexivity).
    pose proof (load_step _ _ _ _ _ N R St) as Ls.
    destruct (IH (load (stations_of (ops ++ [YNext])) y1) ltac:(rewrite Es; lia) (ops ++ [YNext]) y1 (ns ++ n1) eq_refl N1 W1 R1)
      as (k & y' & ns' & R2 & Q2).
    exists (S k), y', ns'. split; [|exact Q2]. cbn [repeat]. rewrite <- app_assoc in R2. exact R2.
Qed.

(** Once nothing is left to do, every accepted packet was sent as often as its MAC wanted. *)
Lemma settled_station : forall ops y ns g, NoDup (sent_uids ops) -> y_run (y_init a0 p0 m0) ops = Some (Ok (y, ns)) ->
  y_queue y = [] -> g_mac (y_ground y g) = [] /\ g_queue (y_ground y g) = [] /\
  accepted (station_events g ns) = handed (station_events g ns) /\
  forall u, airs u (station_events g ns) = (cps g u * occurs u (accepted (station_events g ns)))%nat.
Proof.
  intros ops y ns g N R Q. pose proof (station_inv _ _ _ g N R) as C. pose proof (jobs_run _ _ _ R) as J.
  assert (Gm : g_mac (y_ground y g) = []).
  { destruct (g_mac (y_ground y g)) as [|j m] eqn:E; [reflexivity|]. specialize (J g j). rewrite Q, E, times_cons, is_job_refl, !times_nil in J. lia. }
  assert (B : g_busy (y_ground y g) = false).
  { destruct (g_busy (y_ground y g)) eqn:B; [|reflexivity]. destruct (ci_busy _ _ _ _ C B Gm). }
  pose proof (ci_idle _ _ _ _ C B) as Gq. pose proof (ci_fifo _ _ _ _ C) as Fi. rewrite Gq, app_nil_r in Fi.
  repeat split; auto. intros u. pose proof (ci_air _ _ _ _ C u) as Ai. rewrite Gm in Ai. unfold held in Ai. rewrite times_nil in Ai.
  rewrite Fi. lia.
Qed.
End System.
