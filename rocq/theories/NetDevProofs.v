(** Proofs about the settings of devices and their channels. *)
From Coq Require Import ZArith List Lia Bool Arith.
From Verif Require Import Base SatAddrModel SatAddrSpec SatAddrProofs ChannelModel NetDevModel NetDevSpec.
Import ListNotations.
Open Scope nat_scope.

Definition nw_new (cls : nat -> dclass) : nworld := mkNW (fun d => nd_new (cls d)) (fun _ => gs_new) (fun _ => ss_new).

Section Runs.
Variable h : host.
Variables mac_type sat_type : Z.
Variable mob : nat -> mobility.
Variable success : option (nat -> nat -> bool).
Notation step := (nd_step h mac_type sat_type mob success).
Notation run := (nd_run h mac_type sat_type mob success).

Lemma run_app : forall l1 l2 w w1 s1, run w l1 = Some (Ok (w1, s1)) ->
  run w (l1 ++ l2) = match run w1 l2 with Some (Ok (w2, s2)) => Some (Ok (w2, s1 ++ s2)) | x => x end.
Proof.
  induction l1 as [|[d o] l1 IH]; intros l2 w w1 s1 R; cbn [nd_run app] in *.
  - injection R as <- <-. destruct (run w l2) as [[[w2 s2]| | |]|]; reflexivity.
  - destruct (step w d o) as [[[wa sa]| | |]|]; try discriminate. destruct (run wa l1) as [[[wb sb]| | |]|] eqn:E; try discriminate.
    injection R as <- <-. rewrite (IH l2 _ _ _ E). destruct (run wb l2) as [[[w2 s2]| | |]|]; try reflexivity. rewrite app_assoc. reflexivity.
Qed.
Lemma run_split : forall l1 l2 w w2 s, run w (l1 ++ l2) = Some (Ok (w2, s)) -> exists w1 s1 s2, run w l1 = Some (Ok (w1, s1)) /\ run w1 l2 = Some (Ok (w2, s2)) /\ s = s1 ++ s2.
Proof.
  induction l1 as [|[d o] l1 IH]; intros l2 w w2 s R; cbn [nd_run app] in *; [exists w, [], s; auto|].
  destruct (step w d o) as [[[wa sa]| | |]|]; try discriminate. destruct (run wa (l1 ++ l2)) as [[[wb sb]| | |]|] eqn:E; try discriminate.
  injection R as <- <-. destruct (IH _ _ _ _ E) as (w1 & s1 & s2 & E1 & E2 & ->). exists w1, (sa ++ s1), s2. rewrite E1, app_assoc. auto.
Qed.
Lemma run_one : forall d o w w1 s, run w [(d, o)] = Some (Ok (w1, s)) <-> step w d o = Some (Ok (w1, s)).
Proof.
  intros d o w w1 s. cbn [nd_run]. destruct (step w d o) as [[[wa sa]| | |]|]; try (split; discriminate). rewrite app_nil_r. split; auto.
Qed.

(** ** One call *)
Ltac step_cases H :=
  cbn [nd_step] in H; unfold quiet, nd_attach, rbind, abort_unless, assert_, node_mob in H;
  repeat match type of H with
  | context [match ?x with _ => _ end] => destruct x eqn:?; try discriminate H
  end; try discriminate H;
  match type of H with Some (Ok (?a, ?b)) = Some (Ok (?c, ?e)) => injection H as <- <- end.

Lemma step_other : forall w d o w1 s e, step w d o = Some (Ok (w1, s)) -> e <> d -> nw_dev w1 e = nw_dev w e.
Proof.
  intros w d o w1 s e H N. apply Nat.eqb_neq in N. destruct o; step_cases H; cbn [nw_dev nw_set nw_put]; unfold nw_upd; rewrite ?N; reflexivity.
Qed.
Lemma step_class : forall w d o w1 s e, step w d o = Some (Ok (w1, s)) -> nd_class (nw_dev w1 e) = nd_class (nw_dev w e).
Proof.
  intros w d o w1 s e H. destruct (Nat.eq_dec e d) as [->|N]; [|rewrite (step_other _ _ _ _ _ _ H N); reflexivity].
  destruct o; step_cases H; cbn [nw_dev nw_set nw_put nd_set]; unfold nw_upd; rewrite ?Nat.eqb_refl; cbn [nd_class nd_set]; congruence.
Qed.
Lemma run_class : forall l w w1 s e, run w l = Some (Ok (w1, s)) -> nd_class (nw_dev w1 e) = nd_class (nw_dev w e).
Proof.
  induction l as [|[d o] l IH]; intros w w1 s e R; cbn [nd_run] in R; [injection R as <- <-; reflexivity|].
  destruct (step w d o) as [[[wa sa]| | |]|] eqn:E; try discriminate. destruct (run wa l) as [[[wb sb]| | |]|] eqn:E'; try discriminate.
  injection R as <- <-. rewrite (IH _ _ _ _ E'). exact (step_class _ _ _ _ _ _ E).
Qed.

(** ** Settings *)
Section Setting.
Context {A : Type} (f : ncall -> option A) (r : reg) (good : ncall -> Prop) (v_of : dclass -> A -> dval -> Prop).
Hypothesis writes : forall w d o w1 s v, step w d o = Some (Ok (w1, s)) -> good o -> f o = Some v -> v_of (nd_class (nw_dev w d)) v (nd_reg (nw_dev w1 d) r).
Hypothesis leaves : forall w d o w1 s, step w d o = Some (Ok (w1, s)) -> f o = None -> nd_reg (nw_dev w1 d) r = nd_reg (nw_dev w d) r.

Lemma untouched : forall l w w1 s d, run w l = Some (Ok (w1, s)) -> told_never f d l -> nd_reg (nw_dev w1 d) r = nd_reg (nw_dev w d) r.
Proof.
  induction l as [|[e o] l IH]; intros w w1 s d R N; cbn [nd_run] in R; [injection R as <- <-; reflexivity|].
  destruct (step w e o) as [[[wa sa]| | |]|] eqn:E; try discriminate. destruct (run wa l) as [[[wb sb]| | |]|] eqn:E'; try discriminate.
  injection R as <- <-. rewrite (IH _ _ _ d E'); [|intros o' H; apply N; right; exact H].
  destruct (Nat.eq_dec d e) as [->|Ne]; [|rewrite (step_other _ _ _ _ _ _ E Ne); reflexivity].
  apply (leaves _ _ _ _ _ E). apply N. left. reflexivity.
Qed.
Lemma last_holds : forall l w w1 s d v, run w l = Some (Ok (w1, s)) -> (forall o, In (d, o) l -> good o) -> told_last f d l v -> v_of (nd_class (nw_dev w d)) v (nd_reg (nw_dev w1 d) r).
Proof.
  intros l w w1 s d v R G (l1 & o & l2 & -> & F & N). apply run_split in R. destruct R as (wa & sa & sb & Ra & R & ->).
  change ((d, o) :: l2) with ([(d, o)] ++ l2) in R. apply run_split in R. destruct R as (wb & sc & se & Rb & Rc & ->). apply run_one in Rb.
  rewrite (untouched _ _ _ _ d Rc N). rewrite <- (run_class _ _ _ _ d Ra). apply (writes _ _ _ _ _ _ Rb); [|exact F]. apply G. apply in_or_app. right. left. reflexivity.
Qed.
End Setting.

Ltac setting H := step_cases H; cbn in *; unfold nw_upd; rewrite ?Nat.eqb_refl; cbn; try congruence; try reflexivity.

Definition num_of (g : Z -> Z) (c : dclass) (v : Z) (x : dval) : Prop := x = VNum (g v).
Definition obj_of (c : dclass) (v : option nat) (x : dval) : Prop := x = ptr v.

(** The members of integer type and the pointers. *)
Lemma set_rate : forall w d o w1 s v, step w d o = Some (Ok (w1, s)) -> True -> tells_rate o = Some v -> num_of (fun z => z) (nd_class (nw_dev w d)) v (nd_reg (nw_dev w1 d) Rate).
Proof. intros w d o w1 s v H _ F. destruct o; try discriminate F. injection F as ->. setting H. Qed.
Lemma set_mtu : forall w d o w1 s v, step w d o = Some (Ok (w1, s)) -> True -> tells_mtu o = Some v -> num_of u16 (nd_class (nw_dev w d)) v (nd_reg (nw_dev w1 d) Mtu).
Proof. intros w d o w1 s v H _ F. destruct o; try discriminate F. injection F as ->. setting H. Qed.
Lemma set_index : forall w d o w1 s v, step w d o = Some (Ok (w1, s)) -> True -> tells_index o = Some v -> num_of u32 (nd_class (nw_dev w d)) v (nd_reg (nw_dev w1 d) IfIndex).
Proof. intros w d o w1 s v H _ F. destruct o; try discriminate F. injection F as ->. setting H. Qed.
Lemma set_power : forall w d o w1 s v, step w d o = Some (Ok (w1, s)) -> True -> tells_power o = Some v -> num_of (fun z => z) (nd_class (nw_dev w d)) v (nd_reg (nw_dev w1 d) TxPower).
Proof. intros w d o w1 s v H _ F. destruct o; try discriminate F. injection F as ->. setting H. Qed.
Lemma set_queue : forall w d o w1 s v, step w d o = Some (Ok (w1, s)) -> True -> tells_queue o = Some v -> obj_of (nd_class (nw_dev w d)) v (nd_reg (nw_dev w1 d) TxQueue).
Proof. intros w d o w1 s v H _ F. destruct o; try discriminate F. injection F as ->. setting H. Qed.
Lemma set_node : forall w d o w1 s v, step w d o = Some (Ok (w1, s)) -> True -> tells_node o = Some v -> obj_of (nd_class (nw_dev w d)) v (nd_reg (nw_dev w1 d) TheNode).
Proof. intros w d o w1 s v H _ F. destruct o; try discriminate F. injection F as ->. setting H. Qed.
Lemma set_up : forall w d o w1 s v, step w d o = Some (Ok (w1, s)) -> True -> tells_up o = Some v -> obj_of (nd_class (nw_dev w d)) v (nd_reg (nw_dev w1 d) Receive).
Proof. intros w d o w1 s v H _ F. destruct o; try discriminate F. injection F as ->. setting H. Qed.
Lemma set_promisc : forall w d o w1 s v, step w d o = Some (Ok (w1, s)) -> True -> tells_promisc o = Some v -> obj_of (nd_class (nw_dev w d)) v (nd_reg (nw_dev w1 d) Promisc).
Proof. intros w d o w1 s v H _ F. destruct o; try discriminate F. injection F as ->. setting H. Qed.
Lemma set_macmodel : forall w d o w1 s v, step w d o = Some (Ok (w1, s)) -> True -> tells_mac o = Some v -> obj_of (nd_class (nw_dev w d)) v (nd_reg (nw_dev w1 d) MacModel).
Proof. intros w d o w1 s v H _ F. destruct o; try discriminate F. injection F as ->. setting H. Qed.
Lemma set_channel : forall w d o w1 s v, step w d o = Some (Ok (w1, s)) -> True -> tells_channel o = Some v -> obj_of (nd_class (nw_dev w d)) v (nd_reg (nw_dev w1 d) Chan).
Proof. intros w d o w1 s v H _ F. destruct o; try discriminate F; injection F as ->; unfold obj_of; setting H. Qed.

Ltac keeps_reg := intros w d o w1 s H F; destruct o; try discriminate F; setting H.
Lemma keep_rate : forall w d o w1 s, step w d o = Some (Ok (w1, s)) -> tells_rate o = None -> nd_reg (nw_dev w1 d) Rate = nd_reg (nw_dev w d) Rate.
Proof. keeps_reg. Qed.
Lemma keep_mtu : forall w d o w1 s, step w d o = Some (Ok (w1, s)) -> tells_mtu o = None -> nd_reg (nw_dev w1 d) Mtu = nd_reg (nw_dev w d) Mtu.
Proof. keeps_reg. Qed.
Lemma keep_index : forall w d o w1 s, step w d o = Some (Ok (w1, s)) -> tells_index o = None -> nd_reg (nw_dev w1 d) IfIndex = nd_reg (nw_dev w d) IfIndex.
Proof. keeps_reg. Qed.
Lemma keep_power : forall w d o w1 s, step w d o = Some (Ok (w1, s)) -> tells_power o = None -> nd_reg (nw_dev w1 d) TxPower = nd_reg (nw_dev w d) TxPower.
Proof. keeps_reg. Qed.
Lemma keep_queue : forall w d o w1 s, step w d o = Some (Ok (w1, s)) -> tells_queue o = None -> nd_reg (nw_dev w1 d) TxQueue = nd_reg (nw_dev w d) TxQueue.
Proof. keeps_reg. Qed.
Lemma keep_node : forall w d o w1 s, step w d o = Some (Ok (w1, s)) -> tells_node o = None -> nd_reg (nw_dev w1 d) TheNode = nd_reg (nw_dev w d) TheNode.
Proof. keeps_reg. Qed.
Lemma keep_up : forall w d o w1 s, step w d o = Some (Ok (w1, s)) -> tells_up o = None -> nd_reg (nw_dev w1 d) Receive = nd_reg (nw_dev w d) Receive.
Proof. keeps_reg. Qed.
Lemma keep_promisc : forall w d o w1 s, step w d o = Some (Ok (w1, s)) -> tells_promisc o = None -> nd_reg (nw_dev w1 d) Promisc = nd_reg (nw_dev w d) Promisc.
Proof. keeps_reg. Qed.
Lemma keep_macmodel : forall w d o w1 s, step w d o = Some (Ok (w1, s)) -> tells_mac o = None -> nd_reg (nw_dev w1 d) MacModel = nd_reg (nw_dev w d) MacModel.
Proof. keeps_reg. Qed.
Lemma keep_channel : forall w d o w1 s, step w d o = Some (Ok (w1, s)) -> tells_channel o = None -> nd_reg (nw_dev w1 d) Chan = nd_reg (nw_dev w d) Chan.
Proof. keeps_reg. Qed.
Lemma keep_address : forall w d o w1 s, step w d o = Some (Ok (w1, s)) -> tells_bytes h o = None -> nd_reg (nw_dev w1 d) Address = nd_reg (nw_dev w d) Address.
Proof. keeps_reg. Qed.
Lemma keep_remote : forall w d o w1 s, step w d o = Some (Ok (w1, s)) -> tells_remote h o = None -> nd_reg (nw_dev w1 d) Remote = nd_reg (nw_dev w d) Remote.
Proof. keeps_reg. Qed.

(** Addresses. *)
Definition bytes_given (o : ncall) : Prop := match o with NAddress a | NRemoteAny a => Forall byte (ga_data a) | _ => True end.
Definition address_of (c : dclass) (b : list Z) (x : dval) : Prop :=
  match c with GroundSta => x = VMac48 b | SatDown => exists a, x = VSat a /\ copy_to h a = b | SatSide => True end.
Definition remote_of (c : dclass) (b : list Z) (x : dval) : Prop := c = GroundSta /\ exists a, x = VSat a /\ copy_to h a = b.

Lemma from_bytes : forall ty a s, Forall byte (ga_data a) -> convert_from h ty a = Ok s -> copy_to h s = ga_data a.
Proof.
  intros ty a s B E. destruct (convert_from_iff h ty a B) as [Y N].
  assert (R : readable_as_satellite ty (ga_type a) (ga_data a)).
  { apply check_compatible_spec. unfold convert_from, assert_, rbind in E. destruct (check_compatible a ty 6); [|discriminate]. cbn [andb]. destruct (Z.of_nat (length (ga_data a)) =? 6)%Z; [reflexivity|discriminate]. }
  destruct (Y R) as (s' & E' & D). rewrite E in E'. injection E' as <-. exact D.
Qed.
Lemma set_address : forall w d o w1 s v, step w d o = Some (Ok (w1, s)) -> bytes_given o -> tells_bytes h o = Some v -> address_of (nd_class (nw_dev w d)) v (nd_reg (nw_dev w1 d) Address).
Proof.
  intros w d o w1 s v H G F. destruct o; try discriminate F; injection F as <-; cbn [nd_step] in H; destruct (nd_class (nw_dev w d)) eqn:C; unfold quiet in H; try discriminate H; cbn [address_of]; try exact Logic.I.
  - destruct (mac_from mac_type a) as [b| | |] eqn:E; try discriminate H. cbn [rbind] in H. injection H as <- <-. cbn. unfold nw_upd. rewrite Nat.eqb_refl. cbn.
    unfold mac_from, assert_, rbind in E. destruct (check_compatible _ _ _); [|discriminate]. destruct (_ =? _); [|discriminate]. injection E as ->. reflexivity.
  - destruct (convert_from h sat_type a) as [b| | |] eqn:E; try discriminate H. cbn [rbind] in H. injection H as <- <-. cbn. unfold nw_upd. rewrite Nat.eqb_refl. cbn.
    exists b. split; [reflexivity|]. exact (from_bytes _ _ _ G E).
  - injection H as <- <-. cbn. unfold nw_upd. rewrite Nat.eqb_refl. reflexivity.
  - injection H as <- <-. cbn. unfold nw_upd. rewrite Nat.eqb_refl. cbn. eauto.
Qed.
Lemma set_remote_bytes : forall w d o w1 s v, step w d o = Some (Ok (w1, s)) -> bytes_given o -> tells_remote h o = Some v -> remote_of (nd_class (nw_dev w d)) v (nd_reg (nw_dev w1 d) Remote).
Proof.
  intros w d o w1 s v H G F. destruct o; try discriminate F; injection F as <-; cbn [nd_step] in H; destruct (nd_class (nw_dev w d)) eqn:C; try discriminate H; (split; [reflexivity|]).
  - destruct (nd_reg (nw_dev w d) Remote); try discriminate H. injection H as <- _. cbn. unfold nw_upd. rewrite Nat.eqb_refl. cbn. eauto.
  - destruct (nd_reg (nw_dev w d) Remote); try discriminate H. destruct (convert_from h sat_type a) as [b| | |] eqn:E; try discriminate H. cbn [rbind] in H. injection H as <- _. cbn. unfold nw_upd. rewrite Nat.eqb_refl. cbn.
    exists b. split; [reflexivity|]. exact (from_bytes _ _ _ G E).
  - injection H as <- _. cbn. unfold nw_upd. rewrite Nat.eqb_refl. cbn. eauto.
Qed.

(** ** Signals and channels *)
Lemma registered_app : forall d l1 l2, registered d (l1 ++ l2) = registered d l1 ++ registered d l2.
Proof. intros. unfold registered. apply flat_map_app. Qed.
Lemma joined_app : forall cls k c l1 l2, joined cls k c (l1 ++ l2) = joined cls k c l1 ++ joined cls k c l2.
Proof. intros. unfold joined. apply flat_map_app. Qed.

Record n_inv (cls : nat -> dclass) (past : program) (w : nworld) : Prop := mkNInv {
  ni_class : forall d, nd_class (nw_dev w d) = cls d;
  ni_change : forall d, nd_change (nw_dev w d) = registered d past;
  ni_gs : forall c, gs_ground (nw_gs w c) = joined cls GroundSta c past;
  ni_ss : forall c, ss_src (nw_ss w c) = joined cls SatSide c past;
  ni_two : forall c, ss_linked (nw_ss w c) = (length (ss_src (nw_ss w c)) =? 2) /\ length (ss_src (nw_ss w c)) <= 2 }.

Lemma n_start : forall cls, n_inv cls [] (nw_new cls).
Proof. intros cls. split; try (intros; reflexivity). intros c. cbn. auto. Qed.

Ltac plain I K :=
  split; [|reflexivity]; split; [exact K| | | |]; intros; rewrite ?registered_app, ?joined_app; cbn [nw_gs nw_ss nw_set nw_put nw_dev registered joined flat_map snd fst app];
  rewrite ?app_nil_r; try apply I; unfold nw_upd; destruct (_ =? _) eqn:?Q; try (apply Nat.eqb_eq in Q; subst); cbn [nd_change nd_set]; apply I.

Lemma n_step : forall cls past w d o w1 s, n_inv cls past w -> step w d o = Some (Ok (w1, s)) ->
  n_inv cls (past ++ [(d, o)]) w1 /\ filter is_change s = match o with NAttach _ => map (Changed d) (registered d past) | _ => [] end.
Proof.
  intros cls past w d o w1 s I H.
  assert (K : forall e, nd_class (nw_dev w1 e) = cls e) by (intros e; rewrite (step_class _ _ _ _ _ e H); apply (ni_class _ _ _ I)).
  assert (Ch : forall l, filter is_change (map (Changed d) l) = map (Changed d) l) by (induction l as [|x l IHl]; cbn; congruence).
  destruct o as [r|q|i|m|n|cb|cb|p|a|a|a|cb|c| |m|c|b|a|a].
  all: cbn [nd_step] in H; unfold quiet, rbind in H.
  8-11,15,17-19: repeat match type of H with context [match ?x with _ => _ end] => destruct x eqn:?; try discriminate H end.
  all: try (injection H as <- <-; plain I K).
  - injection H as <- <-. split; [|reflexivity]. split; [exact K| | | |]; intros; rewrite ?registered_app, ?joined_app; cbn [nw_gs nw_ss nw_set nw_put nw_dev joined flat_map snd fst app]; rewrite ?app_nil_r; try apply I.
    unfold nw_upd. cbn [registered flat_map snd fst]. rewrite app_nil_r. destruct (Nat.eqb_spec d0 d) as [->|Ne].
    + rewrite Nat.eqb_refl. cbn [nd_change]. rewrite (ni_change _ _ _ I). reflexivity.
    + rewrite (proj2 (Nat.eqb_neq d d0)) by congruence. rewrite app_nil_r. apply I.
  - injection H as H. pose proof (ni_class _ _ _ I d) as Kd. unfold nd_attach, node_mob in H. rewrite Kd in H.
    assert (Sg : s = call_all w d /\ nw_dev w1 = nw_dev (nw_set w d Chan (ptr c)) /\
      (forall i, gs_ground (nw_gs w1 i) = joined cls GroundSta i (past ++ [(d, NAttach c)])) /\ (forall i, ss_src (nw_ss w1 i) = joined cls SatSide i (past ++ [(d, NAttach c)])) /\
      (forall i, ss_linked (nw_ss w1 i) = (length (ss_src (nw_ss w1 i)) =? 2) /\ length (ss_src (nw_ss w1 i)) <= 2)).
    { destruct (cls d) eqn:Cd; destruct c as [i|]; try discriminate H.
      - destruct (nd_reg (nw_dev w d) TheNode) as [| | |n| |]; cbn [rbind] in H; try discriminate H. unfold add_ground, abort_unless in H.
        destruct (match mob n with NoMobility => false | _ => true end); cbn [rbind] in H; [|discriminate H]. injection H as <- <-. split; [reflexivity|]. split; [reflexivity|]. cbn [nw_gs nw_ss]. split; [|split].
        + intros j. rewrite joined_app. cbn [joined flat_map snd fst app]. rewrite Cd. unfold nw_upd. destruct (Nat.eqb_spec j i) as [->|Ne].
          * rewrite Nat.eqb_refl. cbn [gs_ground]. rewrite (ni_gs _ _ _ I). reflexivity.
          * rewrite (proj2 (Nat.eqb_neq i j)) by congruence. rewrite app_nil_r. apply I.
        + intros j. rewrite joined_app. cbn [joined flat_map snd fst app]. rewrite Cd. rewrite app_nil_r. apply I.
        + apply I.
      - injection H as <- <-. split; [reflexivity|]. split; [reflexivity|]. cbn [nw_gs nw_ss nw_set nw_put].
        repeat split; intros; rewrite ?joined_app; cbn [joined flat_map snd fst app]; rewrite ?Cd, ?app_nil_r; apply I.
      - injection H as <- <-. split; [reflexivity|]. split; [reflexivity|]. cbn [nw_gs nw_ss nw_set nw_put].
        repeat split; intros; rewrite ?joined_app; cbn [joined flat_map snd fst app]; rewrite ?app_nil_r; apply I.
      - destruct (nd_reg (nw_dev w d) TheNode) as [| | |n| |]; cbn [rbind] in H; try discriminate H. unfold ss_attach, abort_unless, assert_ in H.
        destruct (match mob n with NoMobility => false | _ => true end); cbn [rbind] in H; [|discriminate H].
        destruct (length (ss_src (nw_ss w i)) <? 2) eqn:Lt; cbn [rbind] in H; [|discriminate H]. apply Nat.ltb_lt in Lt.
        assert (Q : exists lk, w1 = mkNW (nw_dev (nw_set w d Chan (VObj i))) (nw_gs w) (nw_upd (nw_ss w) i (mkSS (ss_src (nw_ss w i) ++ [d]) lk)) /\ s = call_all w d /\ lk = (length (ss_src (nw_ss w i) ++ [d]) =? 2)).
        { destruct (length (ss_src (nw_ss w i) ++ [d]) =? 2) eqn:L2.
          - destruct success; [|discriminate H]. destruct (mob n); try discriminate H. injection H as <- <-. exists true. auto.
          - cbn [rbind] in H. injection H as <- <-. exists (ss_linked (nw_ss w i)). split; [reflexivity|]. split; [reflexivity|]. rewrite (proj1 (ni_two _ _ _ I i)). apply Nat.eqb_neq. lia. }
        destruct Q as (lk & -> & -> & ->). split; [reflexivity|]. split; [reflexivity|]. cbn [nw_gs nw_ss]. split; [|split].
        + intros j. rewrite joined_app. cbn [joined flat_map snd fst app]. rewrite Cd. rewrite app_nil_r. apply I.
        + intros j. rewrite joined_app. cbn [joined flat_map snd fst app]. rewrite Cd. unfold nw_upd. destruct (Nat.eqb_spec j i) as [->|Ne].
          * rewrite Nat.eqb_refl. cbn [ss_src]. rewrite (ni_ss _ _ _ I). reflexivity.
          * rewrite (proj2 (Nat.eqb_neq i j)) by congruence. rewrite app_nil_r. apply I.
        + intros j. unfold nw_upd. destruct (j =? i) eqn:Q; [|apply I]. cbn [ss_src ss_linked]. rewrite app_length. cbn [length]. split; [reflexivity|lia]. }
    destruct Sg as (-> & Dv & G & Ss & Tw). split.
    + split; [exact K| |exact G|exact Ss|exact Tw]. intros e. rewrite Dv, registered_app. cbn [registered flat_map snd fst app]. rewrite app_nil_r. cbn [nw_set nw_put nw_dev]. unfold nw_upd. destruct (Nat.eqb_spec e d) as [->|Ne]; [cbn [nd_change nd_set]|]; apply I.
    + unfold call_all. rewrite (ni_change _ _ _ I). apply Ch.
Qed.

Lemma n_run : forall cls l past w w1 s, n_inv cls past w -> run w l = Some (Ok (w1, s)) ->
  n_inv cls (past ++ l) w1 /\ filter is_change s = notices past l.
Proof.
  induction l as [|[d o] l IH]; intros past w w1 s I R; cbn [nd_run] in R.
  - injection R as <- <-. rewrite app_nil_r. split; [exact I|reflexivity].
  - destruct (step w d o) as [[[wa sa]| | |]|] eqn:E; try discriminate. destruct (run wa l) as [[[wb sb]| | |]|] eqn:E'; try discriminate.
    injection R as <- <-. destruct (n_step _ _ _ _ _ _ _ I E) as [I1 F1]. destruct (IH _ _ _ _ I1 E') as [I2 F2]. rewrite <- app_assoc in I2. split; [exact I2|].
    rewrite filter_app, F1, F2. cbn [notices snd fst]. reflexivity.
Qed.
End Runs.
