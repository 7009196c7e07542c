(** Theorems about the traces. *)
From Coq Require Import ZArith List Lia Bool Ascii String.
From Verif Require Import Base SatAddrModel SatAddrProofs DeviceModel DeviceSpec DeviceProofs DeviceProps TraceModel TraceSpec TraceProofs.
Import ListNotations.
Open Scope Z_scope.

(** * C90 *)

(** Firing the sources changes nothing: the devices do what they do without them, and everything proved of that holds of
    the calls and the packets in the traces. *)
Theorem traces_ground_neutral : forall fits copies d ops, g_erase (gt_run fits copies d ops) = g_run fits copies d (map snd ops).
Proof. intros. apply gt_run_erase. Qed.
Print Assumptions traces_ground_neutral.

Theorem traces_satellite_neutral : forall fits dur ops,
  (forall d, fate (st_run (st_step fits dur) d ops) = fate (s_run (s_step fits dur) d ops) /\
             fate (st_run (it_step fits dur) d ops) = fate (s_run (i_step fits dur) d ops)) /\
  forall tstep step, (tstep, step) = (st_step fits dur, s_step fits dur) \/ (tstep, step) = (it_step fits dur, i_step fits dur) ->
    forall d tr, st_run tstep s_init ops = Some (Ok (d, tr)) -> exists ev, s_run step s_init ops = Some (Ok (d, ev)) /\
      airings ev = calls tr /\ requests ev = shown Enqueue tr.
Proof.
  intros fits dur ops. split.
  - intros d. split; apply st_run_fate; [apply st_erase|apply it_erase].
  - assert (O : one_pending s_init) by (left; repeat split).
    intros tstep step [H|H] d tr R; injection H as -> ->.
    + apply (st_run_erase dur _ _ (st_traced dur fits) (st_erase dur fits) ops s_init); assumption.
    + apply (st_run_erase dur _ _ (it_traced dur fits) (it_erase dur fits) ops s_init); assumption.
Qed.
Print Assumptions traces_satellite_neutral.

(** What the trace of a device on board says.  Every packet given to [Send] is first seen at MacTx, then either enqueued or dropped,
    and dropped at both sources, as [Send] answers.  Packets leave the queue in the order they came; each is seen by the sniffer and
    at PhyTxBegin at that moment, and the channel is called with it.  Each transmission is over before the next, after the time
    the packet takes. *)
Definition told (dur : Z -> Z) (ops : list sop) (d : sdev) (tr : list (effect airing)) : Prop :=
  (exists vs, map fst vs = s_asked ops /\ filter entry tr = flat_map taken_or_refused vs) /\
  map snd (shown Enqueue tr) = map snd (shown Dequeue tr) ++ s_queue d /\
  filter launching tr = flat_map firing (calls tr) /\
  shown Dequeue tr = starts (calls tr) /\
  (exists l x, filter on_air tr = flat_map transmission l ++ begun x /\
     Forall (fun y : Z * Z * Z => let '(t, t', u) := y in t' = t + dur u) l /\ (x = None <-> s_busy d = false)) /\
  exists ahead, in_turn dur 0 (shown Enqueue tr) = shown PhyTxBegin tr ++ ahead /\ map snd ahead = s_queue d.

Lemma told_of : forall dur ops d tr ev, (forall u, 0 <= dur u) -> tk dur d (s_asked ops) tr -> serves dur d ev ->
  airings ev = calls tr -> requests ev = shown Enqueue tr -> told dur ops d tr.
Proof.
  intros dur ops d tr ev Dp [P E Q L B A] (ahead & S & U & _) X Y.
  split; [exact E|]. split; [exact Q|]. split; [exact L|]. split; [exact B|]. split.
  - destruct A as (l & F & G). eexists l, _. split; [exact G|]. split; [exact F|].
    destruct P as [(Bz & Pe & _)|(c & Bz & Pe)]; rewrite Bz, Pe; split; congruence.
  - exists ahead. rewrite <- Y, S, X. split; [|exact U]. f_equal.
    rewrite <- (shown_filter _ PhyTxBegin launching tr), L by reflexivity. clear.
    induction (calls tr) as [|a l IH]; [reflexivity|]. cbn. f_equal. exact IH.
Qed.

Theorem downlink_traces : forall fits dur ops d tr, (forall u, 0 <= dur u) ->
  st_run (st_step fits dur) s_init ops = Some (Ok (d, tr)) -> told dur ops d tr.
Proof.
  intros fits dur ops d tr Dp R.
  pose proof (st_run_inv dur _ (st_traced dur fits) ops s_init [] [] d tr (tk_init dur) R) as K. cbn [app] in K.
  destruct (proj2 (traces_satellite_neutral fits dur ops) _ _ (or_introl eq_refl) d tr R) as (ev & R' & X & Y).
  eapply told_of; eauto. destruct (downlink_fifo fits dur ops _ Dp R') as (_ & _ & F). apply F. reflexivity.
Qed.
Print Assumptions downlink_traces.

Theorem isl_traces : forall fits dur ops r, (forall u, 0 <= dur u) ->
  st_run (it_step fits dur) s_init ops = Some r -> exists d tr, r = Ok (d, tr) /\ told dur ops d tr.
Proof.
  intros fits dur ops r Dp R.
  pose proof (st_run_fate _ _ (it_erase dur fits) ops s_init) as Fa. rewrite R in Fa.
  destruct (s_run (i_step fits dur) s_init ops) as [r'|] eqn:R'; [|discriminate].
  destruct (i_run_ok dur Dp fits ops s_init [] r' (t_inv_init dur) R') as (d' & ev' & -> & _).
  destruct r as [[d tr]| | |]; try discriminate. exists d, tr. split; [reflexivity|].
  pose proof (st_run_inv dur _ (it_traced dur fits) ops s_init [] [] d tr (tk_init dur) R) as K. cbn [app] in K.
  destruct (proj2 (traces_satellite_neutral fits dur ops) _ _ (or_intror eq_refl) d tr R) as (ev & R2 & X & Y).
  rewrite R' in R2. injection R2 as <- <-.
  destruct (i_run_ok dur Dp fits ops s_init [] _ (t_inv_init dur) R') as (d2 & ev2 & H & T). injection H as <- <-. cbn [app] in T.
  eapply told_of; eauto. apply serves_of_inv; assumption.
Qed.
Print Assumptions isl_traces.

(** Ground stations, whatever the MAC does with a packet: as many transmissions of a packet begin as have ended or are on the air; and those,
    with the ones the MAC still owes, are the copies of the packets that have left the queue. *)
Theorem ground_traces : forall fits copies a p ops d tr,
  gt_run fits copies (g_init a p) ops = Some (Ok (d, tr)) ->
  (exists vs, map fst vs = g_asked ops /\ filter entry tr = flat_map taken_or_refused vs) /\
  map snd (shown Enqueue tr) = map snd (shown Dequeue tr) ++ g_queue d /\
  (exists ts, map snd ts = calls tr /\ filter launching tr = flat_map (fun x => gfiring (fst x) (snd x)) ts) /\
  forall u, fired PhyTxBegin u tr = (fired PhyTxEnd u tr + jobs_of true u (g_mac d))%nat /\
    (fired PhyTxBegin u tr + jobs_of false u (g_mac d) = copies u * fired Dequeue u tr)%nat.
Proof.
  intros fits copies a p ops d tr R.
  destruct (gt_run_inv fits copies ops _ [] [] d tr (gk_init fits copies a p) R) as [E Q L A D]. cbn [app] in *.
  split; [exact E|]. split; [exact Q|]. split; [exact L|]. intros u. split; [apply A|apply D].
Qed.
Print Assumptions ground_traces.

(** With one copy, transmissions do not overlap; and one is under way only if the device is not ready. *)
Theorem ground_traces_once : forall fits a p ops d tr,
  gt_run fits (fun _ => 1%nat) (g_init a p) ops = Some (Ok (d, tr)) ->
  exists l x, filter on_air tr = flat_map transmission l ++ begun x /\ (g_busy d = false -> x = None).
Proof.
  intros fits a p ops d tr R. change (fun _ : Z => 1%nat) with once in R.
  destruct (gt_run_air fits ops _ [] d tr (gair_init a p) R) as [S (l & x & A & X)]. cbn [app] in *. exists l, x. split; [exact A|].
  intros B. destruct S as [(_ & M)|(j & B' & _)]; [|congruence]. rewrite M in X. destruct x; [discriminate|reflexivity].
Qed.
Print Assumptions ground_traces_once.

(** Reception at a ground station: PhyRxBegin for the frames of the satellite tracked when they arrive, and what ends is seen by
    PhyRxEnd, the sniffer, MacRx and the node, in this order, without anything between. *)
Theorem reception_traces : forall h a ops s tr, wf_sat h a -> Forall (eop_wf h) ops ->
  et_run h (e_init a) ops = Some (s, tr) ->
  e_run h (e_init a) ops = Some s /\
  passed_up tr = map (fun x => (fst x, h_uid (snd x))) (e_up s) /\
  shown PhyRxBegin tr = tracked_arrivals a ops /\
  filter (fun e => match e with Tr PhyRxBegin _ _ => false | _ => true end) tr = flat_map reception (passed_up tr).
Proof.
  intros h a ops s tr W V R. split; [rewrite <- et_run_erase, R; reflexivity|].
  assert (I : e_inv h (e_init a)) by (constructor; cbn; [exact W| |constructor|constructor]; intros [|i] j x y _ H; discriminate).
  destruct (et_run_shown h ops (e_init a) s tr I V R) as (A & B & G). split; [|split; assumption]. symmetry. exact A.
Qed.
Print Assumptions reception_traces.

(** * C91 *)

Definition plus (f : list (ascii * Z * Z)) : nat := count_occ ascii_dec (map (fun l => fst (fst l)) f) "+"%char.
Definition minus (f : list (ascii * Z * Z)) : nat := count_occ ascii_dec (map (fun l => fst (fst l)) f) "-"%char.
Definition drops (f : list (ascii * Z * Z)) : nat := count_occ ascii_dec (map (fun l => fst (fst l)) f) "d"%char.

Lemma plus_shown : forall C (tr : list (effect C)), plus (flat_map ascii_line tr) = List.length (shown Enqueue tr).
Proof. intros. unfold plus, shown. induction tr as [|e l IH]; [reflexivity|]. cbn [flat_map]. rewrite map_app, count_occ_app, IH, app_length. destruct e as [[]| | |]; reflexivity. Qed.
Lemma minus_shown : forall C (tr : list (effect C)), minus (flat_map ascii_line tr) = List.length (shown Dequeue tr).
Proof. intros. unfold minus, shown. induction tr as [|e l IH]; [reflexivity|]. cbn [flat_map]. rewrite map_app, count_occ_app, IH, app_length. destruct e as [[]| | |]; reflexivity. Qed.
Lemma drops_shown : forall C (tr : list (effect C)), drops (flat_map ascii_line tr) = List.length (shown QueueDrop tr).
Proof. intros. unfold drops, shown. induction tr as [|e l IH]; [reflexivity|]. cbn [flat_map]. rewrite map_app, count_occ_app, IH, app_length. destruct e as [[]| | |]; reflexivity. Qed.

Lemma entry_count : forall C (vs : list (Z * Z * bool)),
  (List.length (@shown C Enqueue (flat_map taken_or_refused vs)) + List.length (@shown C QueueDrop (flat_map taken_or_refused vs)) = List.length vs)%nat.
Proof. intros C. induction vs as [|[[t u] []] l IH]; [reflexivity| |]; cbn [flat_map]; rewrite !shown_app, !app_length; cbn; lia. Qed.

(** The lines + and - of an ASCII trace tell the length of the queue, and + and d the packets asked for, for each kind of device. *)
Theorem ascii_accounts : forall fits dur copies,
  (forall a p ops d tr, gt_run fits copies (g_init a p) ops = Some (Ok (d, tr)) ->
     let f := ascii_file HIcarus CGroundSta tr in
     plus f = (minus f + List.length (g_queue d))%nat /\ (plus f + drops f)%nat = List.length (g_asked ops)) /\
  (forall ops d tr, st_run (st_step fits dur) s_init ops = Some (Ok (d, tr)) ->
     let f := ascii_file HIcarus CSat2Ground tr in
     plus f = (minus f + List.length (s_queue d))%nat /\ (plus f + drops f)%nat = List.length (s_asked ops)) /\
  (forall ops d tr, st_run (it_step fits dur) s_init ops = Some (Ok (d, tr)) ->
     let f := ascii_file HIsl CSat tr in
     plus f = (minus f + List.length (s_queue d))%nat /\ (plus f + drops f)%nat = List.length (s_asked ops)).
Proof.
  assert (K : forall C (tr : list (effect C)) q reqs vs, map fst vs = reqs -> filter entry tr = flat_map taken_or_refused vs ->
    map snd (shown Enqueue tr) = map snd (shown Dequeue tr) ++ q ->
    plus (flat_map ascii_line tr) = (minus (flat_map ascii_line tr) + List.length q)%nat /\
    (plus (flat_map ascii_line tr) + drops (flat_map ascii_line tr))%nat = List.length reqs).
  { intros C tr q reqs vs M E Q. rewrite plus_shown, minus_shown, drops_shown. split.
    - apply (f_equal (@List.length Z)) in Q. rewrite app_length, !map_length in Q. exact Q.
    - rewrite <- (shown_filter _ Enqueue entry tr), <- (shown_filter _ QueueDrop entry tr), E, entry_count, <- M, map_length by reflexivity. reflexivity. }
  intros fits dur copies. split; [|split].
  - intros a p ops d tr R. destruct (gt_run_inv fits copies ops _ [] [] d tr (gk_init fits copies a p) R) as [(vs & M & E) Q _ _ _].
    cbn [app] in *. eapply K; eauto.
  - intros ops d tr R. destruct (st_run_inv dur _ (st_traced dur fits) ops s_init [] [] d tr (tk_init dur) R) as [_ (vs & M & E) Q _ _ _].
    cbn [app] in *. eapply K; eauto.
  - intros ops d tr R. destruct (st_run_inv dur _ (it_traced dur fits) ops s_init [] [] d tr (tk_init dur) R) as [_ (vs & M & E) Q _ _ _].
    cbn [app] in *. eapply K; eauto.
Qed.
Print Assumptions ascii_accounts.

(** A capture, in either mode, holds the packets the device transmits and receives. *)
Definition captures {C} (debug : bool) (w : which_helper) (c : class) (promiscuous : bool) (tr : list (effect C)) (l : list (Z * Z)) : Prop :=
  exists s, enable_pcap debug w c promiscuous = Ok s /\ pcap_file s tr = l.

Lemma pcap_shown : forall C s (tr : list (effect C)), pcap_file (Some s) tr = shown s tr.
Proof.
  intros. unfold pcap_file, shown. induction tr as [|e l IH]; [reflexivity|]. cbn [flat_map]. rewrite IH. f_equal.
  destruct e; try reflexivity. unfold source_eqb. destruct (source_dec s s0); reflexivity.
Qed.

(** So it is in normal mode.  Missing: promiscuous mode. *)
Theorem capture_partial : forall debug fits dur copies h, (forall u, 0 <= dur u) ->
  (forall a p ops d tr, gt_run fits copies (g_init a p) ops = Some (Ok (d, tr)) ->
     exists ts, map snd ts = calls tr /\ captures debug HIcarus CGroundSta false tr (map (fun x => (fst x, fst (snd x))) ts)) /\
  (forall ops d tr, st_run (st_step fits dur) s_init ops = Some (Ok (d, tr)) ->
     captures debug HIcarus CSat2Ground false tr (starts (calls tr))) /\
  (forall ops d tr, st_run (it_step fits dur) s_init ops = Some (Ok (d, tr)) ->
     captures debug HIsl CSat false tr (starts (calls tr))) /\
  (forall a ops s tr, wf_sat h a -> Forall (eop_wf h) ops -> et_run h (e_init a) ops = Some (s, tr) ->
     captures debug HIcarus CGroundSta false tr (map (fun x => (fst x, h_uid (snd x))) (e_up s))).
Proof.
  intros debug fits dur copies h Dp.
  assert (S : forall tr : list (effect airing), filter launching tr = flat_map firing (calls tr) -> shown Sniffer tr = starts (calls tr)).
  { intros tr L. rewrite <- (shown_filter _ Sniffer launching tr), L by reflexivity. clear. induction (calls tr) as [|x l IH]; [reflexivity|]. cbn. f_equal. exact IH. }
  split; [|split; [|split]].
  - intros a p ops d tr R. destruct (ground_traces _ _ _ _ _ _ _ R) as (_ & _ & (ts & M & L) & _). exists ts. split; [exact M|].
    exists (Some Sniffer). split; [reflexivity|]. rewrite pcap_shown, <- (shown_filter _ Sniffer launching tr), L by reflexivity.
    clear. induction ts as [|x l IH]; [reflexivity|]. cbn. f_equal. exact IH.
  - intros ops d tr R. exists (Some Sniffer). split; [reflexivity|]. rewrite pcap_shown. apply S. apply (downlink_traces _ _ _ _ _ Dp R).
  - intros ops d tr R. exists (Some Sniffer). split; [reflexivity|]. rewrite pcap_shown. apply S.
    destruct (isl_traces _ _ _ _ Dp R) as (d' & tr' & [= <- <-] & T). apply T.
  - intros a ops s tr W V R. exists (Some Sniffer). split; [reflexivity|]. rewrite pcap_shown.
    destruct (reception_traces _ _ _ _ _ W V R) as (_ & U & _ & F). rewrite <- U.
    rewrite <- (shown_filter _ Sniffer (fun e => match e with Tr PhyRxBegin _ _ => false | _ => true end) tr), F by reflexivity.
    clear. induction (passed_up tr) as [|[t u] l IH]; [reflexivity|]. cbn. f_equal. exact IH.
Qed.
Print Assumptions capture_partial.

(** In promiscuous mode the helpers ask for a source "PromiscSniffer", which no device declares: a debug build stops, and the file of another
    one stays empty whatever the device sends. *)
Theorem capture_promiscuous_refuted :
  ~ (forall debug fits dur ops d tr, (forall u, 0 <= dur u) -> st_run (it_step fits dur) s_init ops = Some (Ok (d, tr)) ->
       captures debug HIsl CSat true tr (starts (calls tr))) /\
  forall w c, deals w c = true -> enable_pcap true w c true = Assert /\
    forall C (tr : list (effect C)) l, captures false w c true tr l -> l = [].
Proof.
  split.
  - intros H. destruct (H false (fun _ _ => true) (fun _ => 5) [SSend 1 9 7] _ _ ltac:(intros; lia) eq_refl) as (s & E & F).
    injection E as <-. discriminate F.
  - intros w c D. unfold captures, enable_pcap. rewrite D. split; [reflexivity|]. intros C tr l (s & E & F). injection E as <-. symmetry. exact F.
Qed.
Print Assumptions capture_promiscuous_refuted.

(** A queue of two, packets of length 10: 1 leaves at once, 2 and 3 wait, 4 is refused; 2 starts when 1 ends. *)
Example traces_case : forall (capture : option source), capture = Some Sniffer ->
  match st_run (st_step two (fun _ => 10)) s_init [SSend 0 1 7; SSend 3 2 7; SSend 4 3 7; SSend 5 4 7; SComplete] with
  | Some (Ok (d, tr)) =>
      tr = [Tr MacTx 0 1; Tr Enqueue 0 1; Tr Dequeue 0 1; Tr Sniffer 0 1; Tr PhyTxBegin 0 1; Call (mkAir 1 0 7); Ret 1 true;
            Tr MacTx 3 2; Tr Enqueue 3 2; Ret 2 true; Tr MacTx 4 3; Tr Enqueue 4 3; Ret 3 true;
            Tr MacTx 5 4; Tr QueueDrop 5 4; Tr MacTxDrop 5 4; Ret 4 false;
            Tr PhyTxEnd 10 1; Tr Dequeue 10 2; Tr Sniffer 10 2; Tr PhyTxBegin 10 2; Call (mkAir 2 10 7)] /\
      pcap_file capture tr = [(0, 1); (10, 2)] /\
      ascii_file HIcarus CSat2Ground tr = [("+", 0, 1); ("-", 0, 1); ("+", 3, 2); ("+", 4, 3); ("d", 5, 4); ("-", 10, 2)]%char /\
      ascii_file HIsl CSat2Ground tr = []
  | _ => False
  end.
Proof. intros capture ->. vm_compute. repeat split. Qed.

(** Two copies of each packet (CRDSA): the capture shows packet 1 twice; its first end lets packet 2 go to the MAC. *)
Example traces_copies_case :
  match gt_run two (fun _ => 2%nat) (g_init (sat_make le 0 1 2) 30)
    [(0, GSend 1 7); (1, GSend 2 7); (5, GMac 0); (8, GMac 0); (9, GMac 0); (12, GMac 0)] with
  | Some (Ok (d, tr)) => map snd (pcap_file (Some Sniffer) tr) = [1; 1] /\ shown Dequeue tr = [(0, 1); (8, 2)] /\
      shown PhyTxEnd tr = [(8, 1); (12, 1)] /\ List.length (g_mac d) = 2%nat
  | _ => False
  end.
Proof. vm_compute. repeat split. Qed.

Example reception_case :
  match et_run le (e_init (sat_make le 0 1 2))
    [RArrive 1 (sat_make le 0 1 2) 5 7 10; RArrive 2 (sat_make le 0 1 3) 6 7 10; RRetarget 3 (sat_make le 0 1 3);
     RArrive 4 (sat_make le 0 1 3) 6 7 1; RFinish; RFinish] with
  | Some (s, tr) => tr = [Tr PhyRxBegin 1 5; Tr PhyRxBegin 4 6; Tr PhyRxEnd 5 6; Tr Sniffer 5 6; Tr MacRx 5 6; Up 5 6;
                          Tr PhyRxEnd 11 5; Tr Sniffer 11 5; Tr MacRx 11 5; Up 11 5]
  | None => False
  end.
Proof. vm_compute. reflexivity. Qed.
