(** C129: links installed one by one. *)
From Coq Require Import ZArith QArith List Lia Bool Arith.
From Verif Require Import DeviceModel Base SatAddrModel ConstellationModel LaunchModel ChannelModel IslModel IslSpec IslProofs
  SetupModel SetupSpec SetupProofs SetupRun SetupProps UriModel UriSpec UriProofs UriProps ByHandModel ByHandSpec ByHandProofs.
Import ListNotations.
Open Scope nat_scope.

Section Script.
Variable debug : bool.
Variable ho : host.
Variable plans : nat -> plan.
Hypothesis plans_ok : proper plans.
Variable b : before.
Variable first : Z.
Variable t0 : nat.
Variable l : list sop.
Hypothesis l_holds : holds 0 l.
Variable w : world Q.
Hypothesis w_ok : setup rational debug ho (start plans b first t0) l = Ok w.

Lemma already : exists prs, linked_as w prs.
Proof.
  destruct (script_links debug ho plans plans_ok b first t0 l l_holds w w_ok) as (nets & _ & L & N). exists (concat nets). split; assumption.
Qed.

(** After any calls of the helpers, calls for single links succeed exactly if each names two nodes with mobility models of which
    the second flies; then there is one more channel for each call with an end on each of its two nodes, in the order of the
    calls, each node has its new ends last, and nothing else has changed. *)
Theorem by_hand_links : exists prs, linked_as w prs /\ forall hs,
  ((exists w', by_hand w hs = Ok w') <-> exists new, Forall2 (fun o p => asks_two o p /\ can_link w p) hs new) /\
  (forall w' new, by_hand w hs = Ok w' -> Forall2 asks_two hs new -> only_links w w' /\ linked_as w' (prs ++ new)).
Proof.
  destruct already as [prs L]. exists prs. split; [exact L|]. intros hs. split; [split|].
  - intros [w' H]. destruct (hand_ok _ _ _ _ L H) as (new & F & _). eauto.
  - intros [new F]. exact (hand_can _ _ _ _ L F).
  - intros w' new H F. destruct (hand_ok _ _ _ _ L H) as (new' & F' & O & L'). replace new with new'; [auto|]. clear - F F'. revert new F.
    induction F' as [|o p hs new' [Ap _] F' IH]; intros new F; inversion F as [|? q ? r Aq F1]; subst; [reflexivity|]. rewrite (IH _ F1). f_equal.
    destruct Ap; inversion Aq; reflexivity.
Qed.

Section Done.
Variable hs : list hand_call.
Variable w' : world Q.
Hypothesis done : by_hand w hs = Ok w'.

(** Every frame of an end of a link, old or new, goes to the other end of its channel and nowhere else. *)
Theorem by_hand_frames : forall k e, nth_error (sw_links w') k = Some e ->
  (exists e', nth_error (sw_links w') (other_end k) = Some e' /\ isl_chan e' = isl_chan e) /\ other_end k <> k /\
  forall tx_time delay success u rate proto,
    ss_transmit tx_time delay success (link_channel w' (isl_chan e)) u k rate proto = frame_of tx_time delay success k (other_end k) u rate proto.
Proof.
  intros k e E. destruct already as [prs0 L0]. destruct (hand_ok _ _ _ _ L0 done) as (new & _ & _ & L & _). set (prs := prs0 ++ new) in *. clearbody prs.
  rewrite L in *. rewrite pairs_nth in E. destruct (nth_error prs (Nat.div2 k)) as [[x y]|] eqn:N; [|discriminate E]. injection E as <-. cbn [isl_chan Nat.add].
  assert (Lh : Nat.div2 k < length prs) by (apply nth_error_Some; congruence). pose proof (halves k) as H.
  assert (O : other_end k = if Nat.even k then 2 * Nat.div2 k + 1 else 2 * Nat.div2 k) by (unfold other_end; destruct (Nat.even k); lia).
  assert (D : Nat.div2 (other_end k) = Nat.div2 k).
  { rewrite O. destruct (Nat.even k); [rewrite Nat.add_1_r; apply Nat.div2_succ_double|apply Nat.div2_double]. }
  split; [|split].
  - rewrite pairs_nth, D, N. eexists. split; reflexivity.
  - rewrite O. destruct (Nat.even k); lia.
  - intros tx delay suc u rate proto. unfold link_channel. rewrite L, (both_ends _ _ Lh). unfold ss_transmit. cbn [ss_linked ss_src length Nat.eqb assert_ rbind]. unfold frame_of.
    replace (if k =? 2 * Nat.div2 k then 2 * Nat.div2 k + 1 else 2 * Nat.div2 k) with (other_end k).
    + destruct (match suc with Some f => f k (other_end k) | None => true end); reflexivity.
    + rewrite O. destruct (Nat.even k); destruct (Nat.eqb_spec k (2 * Nat.div2 k)); lia.
Qed.

(** The face of an end is made for the other end just if it is the first one, or the ends are on different nodes. *)
Theorem by_hand_remote_partial : forall k e e', nth_error (sw_links w') k = Some e -> nth_error (sw_links w') (other_end k) = Some e' ->
  (isl_remote (sw_links w') k = Ok (other_end k) <-> Nat.even k = true \/ isl_node e <> isl_node e').
Proof.
  intros k e e' E E'. destruct already as [prs0 L0]. destruct (hand_ok _ _ _ _ L0 done) as (new & _ & _ & L & _). set (prs := prs0 ++ new) in *. clearbody prs.
  rewrite L in *. rewrite pairs_nth in E, E'. pose proof (halves k) as H.
  assert (D : Nat.div2 (other_end k) = Nat.div2 k /\ Nat.even (other_end k) = negb (Nat.even k)).
  { unfold other_end. destruct (Nat.even k) eqn:Ev; set (h := Nat.div2 k) in *.
    - replace (k + 1) with (S (2 * h)) by lia. split; [apply Nat.div2_succ_double|]. rewrite Nat.even_succ, <- Nat.negb_even, Nat.even_mul. reflexivity.
    - replace (k - 1) with (2 * h) by lia. split; [apply Nat.div2_double|]. rewrite Nat.even_mul. reflexivity. }
  destruct D as [D1 D2]. rewrite D1, D2 in E'. destruct (nth_error prs (Nat.div2 k)) as [[x y]|] eqn:N; [|discriminate E]. cbn [option_map fst snd] in E, E'.
  injection E as <-. injection E' as <-. cbn [isl_node]. rewrite (remote_is _ _ _ _ N). unfold other_end in *.
  destruct (Nat.even k) eqn:Ev; cbn [negb].
  - split; [auto|]. intros _. destruct (x =? y); f_equal; lia.
  - destruct (Nat.eqb_spec x y) as [->|Ne].
    + split; [intros X; injection X as X; lia|]. intros [X|X]; [discriminate X|]. destruct (X eq_refl).
    + split; [|reflexivity]. intros _. right. congruence.
Qed.
End Done.
End Script.

(** How a call fails: with an assertion if it does not name two nodes; it stops at the first node without a mobility model; a null
    pointer is followed, also when the second node does not fly. *)
Theorem by_hand_fails : forall A (w : world A) o,
  (hand_step w o = Assert <-> exists ns, o = HNodes ns /\ length ns <> 2) /\
  (hand_step w o = Abort <-> exists a q, points o (Some a) q /\ (sn_pos (sw_nodes w a) = false \/ exists y, q = Some y /\ sn_pos (sw_nodes w y) = false)) /\
  (hand_step w o = UB <-> exists p q, points o p q /\
     match p, q with
     | None, _ => True
     | Some a, None => sn_pos (sw_nodes w a) = true
     | Some a, Some y => sn_pos (sw_nodes w a) = true /\ sn_pos (sw_nodes w y) = true /\ sn_orbit (sw_nodes w y) = false
     end).
Proof.
  intros A w o.
  assert (Two : forall p q, hand_two w p q = match p, q with
    | None, _ => UB
    | Some a, None => if sn_pos (sw_nodes w a) then UB else Abort
    | Some a, Some y => if sn_pos (sw_nodes w a) then if sn_pos (sw_nodes w y) then if sn_orbit (sw_nodes w y) then hand_two w p q else UB else Abort else Abort end).
  { intros [a|] q; [|reflexivity]. unfold hand_two at 1. destruct (sn_pos (sw_nodes w a)) eqn:Pa.
    2: { destruct q; unfold link_end; rewrite Pa; reflexivity. }
    destruct (end_can w a (length (sw_links w) / 2) false Pa) as [w1 E]; [discriminate|]. destruct q as [y|]; [|rewrite E; reflexivity].
    destruct (end_ok _ _ _ _ _ E) as (_ & _ & (_ & _ & _ & _ & _ & O) & _). destruct (O y) as (Ep & Eo & _).
    destruct (sn_pos (sw_nodes w y)) eqn:Py; [destruct (sn_orbit (sw_nodes w y)) eqn:Oy; [reflexivity|]|]; rewrite E; cbn [rbind]; unfold link_end; rewrite Ep, ?Eo; reflexivity. }
  assert (Good : forall a y, sn_pos (sw_nodes w a) = true -> sn_pos (sw_nodes w y) = true -> sn_orbit (sw_nodes w y) = true -> exists w', hand_two w (Some a) (Some y) = Ok w').
  { intros a y P Q R. apply two_can. repeat split; assumption. }
  assert (Pts : (exists p q, points o p q /\ hand_step w o = hand_two w p q) \/ (exists ns, o = HNodes ns /\ length ns <> 2 /\ hand_step w o = Assert)).
  { destruct o as [p q|[|x [|y [|z r]]]].
    - left. exists p, q. split; [constructor|reflexivity].
    - right. eexists. split; [reflexivity|]. split; [discriminate|reflexivity].
    - right. eexists. split; [reflexivity|]. split; [discriminate|reflexivity].
    - left. exists (Some x), (Some y). split; [constructor|reflexivity].
    - right. eexists. split; [reflexivity|]. split; [discriminate|reflexivity]. }
  assert (Un : forall p q p' q', points o p q -> points o p' q' -> p = p' /\ q = q') by (intros p q p' q' X Y; destruct X; inversion Y; auto).
  assert (No : forall ns, o = HNodes ns -> length ns <> 2 -> forall p q, points o p q -> False) by (intros ns -> Ln p q X; inversion X; subst; apply Ln; reflexivity).
  destruct Pts as [(p & q & P & E)|(ns & En & Ln & E)].
  - rewrite E. split; [|split].
    + split.
      * rewrite Two. intros H. exfalso. destruct p as [a|]; [|discriminate H]. destruct (sn_pos (sw_nodes w a)) eqn:Pa; [|destruct q; discriminate H]. destruct q as [y|]; [|discriminate H].
        destruct (sn_pos (sw_nodes w y)) eqn:Py; [|discriminate H]. destruct (sn_orbit (sw_nodes w y)) eqn:Oy; [|discriminate H]. destruct (Good a y Pa Py Oy) as [w' G]. congruence.
      * intros (ns & En & Ln). destruct (No ns En Ln p q P).
    + split.
      * rewrite Two. intros H. destruct p as [a|]; [|discriminate H]. exists a, q. split; [exact P|]. destruct (sn_pos (sw_nodes w a)) eqn:Pa; [|auto]. right. destruct q as [y|]; [|discriminate H].
        exists y. split; [reflexivity|]. destruct (sn_pos (sw_nodes w y)) eqn:Py; [|reflexivity]. destruct (sn_orbit (sw_nodes w y)) eqn:Oy; [|discriminate H]. destruct (Good a y Pa Py Oy) as [w' G]. congruence.
      * intros (a & q' & P' & H). destruct (Un _ _ _ _ P P') as [-> <-]. rewrite Two. destruct H as [->|(y & -> & Py)]; [destruct q; reflexivity|]. rewrite Py. destruct (sn_pos (sw_nodes w a)); reflexivity.
    + split.
      * rewrite Two. intros H. exists p, q. split; [exact P|]. destruct p as [a|]; [|exact Logic.I]. destruct (sn_pos (sw_nodes w a)) eqn:Pa; [|destruct q; discriminate H]. destruct q as [y|]; [|reflexivity].
        destruct (sn_pos (sw_nodes w y)) eqn:Py; [|discriminate H]. destruct (sn_orbit (sw_nodes w y)) eqn:Oy; [|auto]. destruct (Good a y Pa Py Oy) as [w' G]. congruence.
      * intros (p' & q' & P' & H). destruct (Un _ _ _ _ P P') as [<- <-]. rewrite Two. destruct p as [a|]; [|reflexivity]. destruct q as [y|]; [destruct H as (-> & -> & ->); reflexivity|]. rewrite H. reflexivity.
  - rewrite E. split; [|split].
    + split; [intros _; eauto|reflexivity].
    + split; [discriminate|]. intros (a & q & P & _). destruct (No ns En Ln _ _ P).
    + split; [discriminate|]. intros (p & q & P & _). destruct (No ns En Ln _ _ P).
Qed.
Print Assumptions by_hand_links.
Print Assumptions by_hand_frames.
Print Assumptions by_hand_remote_partial.
Print Assumptions by_hand_fails.

(** The three satellites and two stations of [uri_script], node 10 being a station: two satellites linked again, a station with a
    satellite, a satellite with itself. *)
Definition hand_script : list hand_call := [HTwo (Some 0) (Some 2); HNodes [10; 1]; HTwo (Some 1) (Some 1)].
Notation hand_world := (rbind uri_world (fun w => by_hand w hand_script)).

Example by_hand_case : match uri_world, hand_world with
  | Ok w, Ok w' => length (sw_links w) = 6 /\
      sw_links w' = sw_links w ++ [mkIsl 0 3; mkIsl 2 3; mkIsl 10 4; mkIsl 1 4; mkIsl 1 5; mkIsl 1 5] /\
      sn_devs (sw_nodes w' 1) = [RGs 1; RIsl 1; RIsl 2; RIsl 9; RIsl 10; RIsl 11] /\ sn_devs (sw_nodes w' 10) = [RGs 3; RIsl 8] /\
      map (isl_remote (sw_links w')) [6; 7; 8; 9; 10; 11] = map Ok [7; 6; 9; 8; 11; 11] /\
      ss_transmit (fun _ _ => 5%Z) (fun _ _ => 2%Z) None (link_channel w' 5) 3 11 1 7 = Ok (5%Z, [SSAt 2 10 3 1 7]) /\
      hand_step w (HTwo (Some 1) (Some 10)) = UB /\ hand_step w (HTwo (Some 1) (Some 5)) = Abort /\ hand_step w (HNodes [0; 1; 2]) = Assert /\ hand_step w (HTwo (Some 0) None) = UB
  | _, _ => False end.
Proof. vm_compute. repeat split. Qed.

(** That nodes which can be linked can be in either order is false: a station may be the first end, not the second. *)
Theorem by_hand_order_refuted : ~ (forall plans b l w x y w1, proper plans -> holds 0 l ->
  setup rational true LittleEndian (start plans b 4095 0) l = Ok w ->
  hand_step w (HTwo (Some x) (Some y)) = Ok w1 -> exists w2, hand_step w (HTwo (Some y) (Some x)) = Ok w2).
Proof.
  intros H. assert (C : match uri_world with Ok w => hand_step w (HTwo (Some 1) (Some 10)) = UB /\ match hand_step w (HTwo (Some 10) (Some 1)) with Ok _ => True | _ => False end | _ => False end) by (vm_compute; auto).
  destruct uri_world as [w| | |] eqn:E; try contradiction. destruct C as [C1 C2]. destruct (hand_step w (HTwo (Some 10) (Some 1))) as [w1| | |] eqn:S; try contradiction.
  destruct (H uri_plans demo_before uri_script w 10 1 w1 uri_proper Logic.I E S) as [w2 X]. congruence.
Qed.
(** Nor is a face always made for the other end: the second end of a link from a node to itself takes itself for it. *)
Theorem by_hand_remote_refuted : ~ (forall plans b l hs w w' k, proper plans -> holds 0 l ->
  setup rational true LittleEndian (start plans b 4095 0) l = Ok w -> by_hand w hs = Ok w' -> k < length (sw_links w') ->
  isl_remote (sw_links w') k = Ok (other_end k)).
Proof.
  intros H. assert (C : match hand_world with Ok w' => length (sw_links w') = 12 /\ isl_remote (sw_links w') 11 = Ok 11 | _ => False end) by (vm_compute; auto).
  destruct uri_world as [w| | |] eqn:E; try contradiction. cbn [rbind] in C. destruct (by_hand w hand_script) as [w'| | |] eqn:S; try contradiction. destruct C as [C1 C2].
  assert (X : isl_remote (sw_links w') 11 = Ok (other_end 11)) by (apply (H uri_plans demo_before uri_script hand_script w w' 11 uri_proper Logic.I E S); lia).
  rewrite C2 in X. discriminate X.
Qed.
Print Assumptions by_hand_order_refuted.
Print Assumptions by_hand_remote_refuted.
