(** Proofs on links installed one by one. *)
From Coq Require Import ZArith List Lia Bool Arith.
From Verif Require Import DeviceModel Base ConstellationModel LaunchModel ChannelModel IslModel IslSpec SetupModel SetupSpec SetupProofs SetupRun UriModel UriSpec UriProofs ByHandModel ByHandSpec.
Import ListNotations.
Open Scope nat_scope.

Section ByHand.
Context {A : Type}.
Implicit Types w : world A.

Lemma isl_of_app : forall l m, isl_of (l ++ m) = isl_of l ++ isl_of m.
Proof. intros l m. unfold isl_of. apply flat_map_app. Qed.

Lemma only_links_refl : forall w, only_links w w.
Proof. intros w. repeat split. exists []. rewrite app_nil_r. reflexivity. Qed.
Lemma only_links_trans : forall w1 w2 w3, only_links w1 w2 -> only_links w2 w3 -> only_links w1 w3.
Proof.
  intros w1 w2 w3 (H1 & H2 & H3 & H4 & H5 & H6) (G1 & G2 & G3 & G4 & G5 & G6).
  repeat split; try congruence; try (destruct (H6 n) as (a & b & c & _); destruct (G6 n) as (a' & b' & c' & _); congruence).
  destruct (H6 n) as (_ & _ & _ & k & E), (G6 n) as (_ & _ & _ & k' & E'). exists (k ++ k'). rewrite E', E, map_app, app_assoc. reflexivity.
Qed.

Lemma end_ok : forall w n c second w', link_end w n c second = Ok w' ->
  sn_pos (sw_nodes w n) = true /\ (second = true -> sn_orbit (sw_nodes w n) = true) /\ only_links w w' /\
  sw_links w' = sw_links w ++ [mkIsl n c] /\
  (forall m, isl_of (sn_devs (sw_nodes w' m)) = isl_of (sn_devs (sw_nodes w m)) ++ (if n =? m then [length (sw_links w)] else [])).
Proof.
  intros w n c second w' H. unfold link_end in H. destruct (sn_pos (sw_nodes w n)) eqn:P; [|discriminate H]. cbn [abort_unless rbind] in H.
  destruct (second && negb (sn_orbit (sw_nodes w n))) eqn:S; [discriminate H|]. injection H as <-. split; [reflexivity|]. split.
  { intros ->. destruct (sn_orbit (sw_nodes w n)); [reflexivity|discriminate S]. }
  assert (D : forall m, upd (sw_nodes w) n (add_dev (sw_nodes w n) (RIsl (length (sw_links w)))) m = if n =? m then add_dev (sw_nodes w m) (RIsl (length (sw_links w))) else sw_nodes w m).
  { intros m. unfold upd. rewrite Nat.eqb_sym. destruct (Nat.eqb_spec n m) as [->|]; reflexivity. }
  split; [|split; [reflexivity|]].
  - unfold only_links. cbn [sw_helpers sw_chans sw_devs sw_type sw_mac sw_nodes]. repeat (split; [reflexivity|]). intros m. rewrite D.
    destruct (n =? m); cbn [add_dev sn_pos sn_orbit sn_trackers sn_devs]; repeat (split; [reflexivity|]); [exists [length (sw_links w)]; reflexivity|exists []; rewrite app_nil_r; reflexivity].
  - intros m. cbn [sw_nodes]. rewrite D. destruct (n =? m); cbn [add_dev sn_devs]; [apply isl_of_app|rewrite app_nil_r; reflexivity].
Qed.
Lemma end_can : forall w n c second, sn_pos (sw_nodes w n) = true -> (second = true -> sn_orbit (sw_nodes w n) = true) -> exists w', link_end w n c second = Ok w'.
Proof.
  intros w n c second P S. unfold link_end. rewrite P. cbn [abort_unless rbind]. destruct second; [rewrite (S eq_refl)|]; cbn [andb negb]; eauto.
Qed.

Lemma pairs_len : forall prs k, length (install_pairs k prs) = 2 * length prs.
Proof. induction prs as [|p r IH]; intros k; [reflexivity|]. cbn [install_pairs install_pair app length]. rewrite IH. lia. Qed.

Lemma pairs_app : forall l m k, install_pairs k (l ++ m) = install_pairs k l ++ install_pairs (k + length l) m.
Proof.
  induction l as [|p l IH]; intros m k; cbn [app install_pairs length]; [rewrite Nat.add_0_r; reflexivity|]. rewrite IH, app_assoc, <- Nat.add_succ_comm. reflexivity.
Qed.
Lemma Forall2_weak : forall B C (P Q : B -> C -> Prop) l m, (forall x y, P x y -> Q x y) -> Forall2 P l m -> Forall2 Q l m.
Proof. intros B C P Q l m H F. induction F; constructor; auto. Qed.

Lemma two_ok : forall w prs a b w', linked_as w prs -> hand_two w a b = Ok w' ->
  exists x y, a = Some x /\ b = Some y /\ can_link w (x, y) /\ only_links w w' /\ linked_as w' (prs ++ [(x, y)]).
Proof.
  intros w prs a b w' [L N] H. unfold hand_two in H. destruct a as [x|]; [|discriminate H].
  destruct (link_end w x (length (sw_links w) / 2) false) as [w1| | |] eqn:E1; try discriminate H. cbn [rbind] in H. destruct b as [y|]; [|discriminate H].
  apply end_ok in E1. destruct E1 as (P1 & _ & O1 & L1 & N1). apply end_ok in H. destruct H as (P2 & S2 & O2 & L2 & N2). specialize (S2 eq_refl).
  exists x, y. split; [reflexivity|]. split; [reflexivity|]. split; [|split; [exact (only_links_trans _ _ _ O1 O2)|]].
  - destruct O1 as (_ & _ & _ & _ & _ & O1). destruct (O1 y) as (Ep & Eo & _). unfold can_link. cbn [fst snd]. rewrite <- Ep, <- Eo. auto.
  - assert (C : length (sw_links w) / 2 = length prs) by (rewrite L, pairs_len, Nat.mul_comm; apply Nat.div_mul; discriminate).
    assert (E : sw_links w' = install_pairs 0 (prs ++ [(x, y)])).
    { rewrite L2, L1, C, pairs_app, <- L, <- app_assoc. reflexivity. }
    split; [exact E|]. intros n. rewrite N2, N1, N, L2, L1, <- !app_assoc. rewrite places_app. cbn [places Nat.add app isl_node].
    destruct (x =? n), (y =? n); cbn [app]; rewrite ?app_length, ?app_nil_r; cbn [length]; rewrite ?Nat.add_1_r; reflexivity.
Qed.
Lemma two_can : forall w a b, can_link w (a, b) -> exists w', hand_two w (Some a) (Some b) = Ok w'.
Proof.
  intros w a b (P & Q & R). cbn [fst snd] in *. unfold hand_two. destruct (end_can w a (length (sw_links w) / 2) false P) as [w1 E]; [discriminate|]. rewrite E. cbn [rbind].
  apply end_ok in E. destruct E as (_ & _ & (_ & _ & _ & _ & _ & O) & _). destruct (O b) as (Ep & Eo & _). apply end_can; [congruence|intros _; congruence].
Qed.

Lemma step_ok : forall w prs o w', linked_as w prs -> hand_step w o = Ok w' ->
  exists p, asks_two o p /\ can_link w p /\ only_links w w' /\ linked_as w' (prs ++ [p]).
Proof.
  intros w prs o w' L H. destruct o as [a b|ns]; cbn [hand_step] in H.
  - destruct (two_ok _ _ _ _ _ L H) as (x & y & -> & -> & R). exists (x, y). split; [constructor|exact R].
  - destruct ns as [|a [|b [|]]]; try discriminate H. cbn [length Nat.eqb assert_ rbind nth_error] in H.
    destruct (two_ok _ _ _ _ _ L H) as (x & y & E & E' & R). injection E as <-. injection E' as <-. exists (a, b). split; [constructor|exact R].
Qed.
Lemma step_can : forall w o p, asks_two o p -> can_link w p -> exists w', hand_step w o = Ok w'.
Proof. intros w o p [a b|a b] C; cbn [hand_step length Nat.eqb assert_ rbind nth_error]; apply two_can; exact C. Qed.

Lemma only_can : forall w w' p, only_links w w' -> can_link w' p <-> can_link w p.
Proof. intros w w' p (_ & _ & _ & _ & _ & O). unfold can_link. destruct (O (fst p)) as (-> & _), (O (snd p)) as (-> & -> & _). reflexivity. Qed.

Lemma hand_ok : forall l w prs w', linked_as w prs -> by_hand w l = Ok w' ->
  exists new, Forall2 (fun o p => asks_two o p /\ can_link w p) l new /\ only_links w w' /\ linked_as w' (prs ++ new).
Proof.
  induction l as [|o l IH]; intros w prs w' L H; cbn [by_hand] in H.
  - injection H as <-. exists []. rewrite app_nil_r. split; [constructor|]. split; [apply only_links_refl|exact L].
  - destruct (hand_step w o) as [w1| | |] eqn:E; try discriminate H. cbn [rbind] in H. destruct (step_ok _ _ _ _ L E) as (p & Ap & Cp & Op & Lp).
    destruct (IH _ _ _ Lp H) as (new & F & O & L'). exists (p :: new). split; [|split; [exact (only_links_trans _ _ _ Op O)|rewrite <- app_assoc in L'; exact L']].
    constructor; [auto|]. eapply Forall2_weak; [|exact F]. intros q r [Aq Cq]. split; [exact Aq|]. apply (only_can _ _ _ Op). exact Cq.
Qed.
Lemma hand_can : forall l w prs new, linked_as w prs -> Forall2 (fun o p => asks_two o p /\ can_link w p) l new -> exists w', by_hand w l = Ok w'.
Proof.
  induction l as [|o l IH]; intros w prs new L F; cbn [by_hand]; [eauto|]. inversion F as [|? p ? new' [Ap Cp] F']; subst.
  destruct (step_can _ _ _ Ap Cp) as [w1 E]. rewrite E. cbn [rbind]. destruct (step_ok _ _ _ _ L E) as (q & _ & _ & Oq & Lq).
  apply (IH _ _ new' Lq). eapply Forall2_weak; [|exact F']. intros x y [Ax Cx]. split; [exact Ax|]. apply (only_can _ _ _ Oq). exact Cx.
Qed.

(** The ends of the channel of a device. *)
Lemma both_ends : forall prs c, c < length prs -> attached c 0 (install_pairs 0 prs) = [2 * c; 2 * c + 1].
Proof.
  intros prs c H. rewrite attached_pairs. cbn [Nat.leb]. destruct (Nat.ltb_spec c (0 + length prs)); [|lia]. cbn [andb]. rewrite Nat.sub_0_r. reflexivity.
Qed.
Lemma remote_is : forall prs k x y, nth_error prs (Nat.div2 k) = Some (x, y) ->
  isl_remote (install_pairs 0 prs) k = Ok (if x =? y then 2 * Nat.div2 k + 1 else other_end k).
Proof.
  intros prs k x y E. pose proof (halves k) as H. assert (Lh : Nat.div2 k < length prs) by (apply nth_error_Some; congruence).
  unfold isl_remote. rewrite pairs_nth, E. cbn [option_map isl_chan isl_node Nat.add]. unfold get_device. rewrite (both_ends _ _ Lh). cbn [nth_error rbind].
  rewrite pairs_nth, Nat.div2_double, E. cbn [option_map isl_node]. rewrite Nat.even_mul. cbn [Nat.even orb fst snd]. unfold other_end.
  destruct (Nat.even k).
  - rewrite Nat.eqb_refl. destruct (x =? y); f_equal; lia.
  - destruct (Nat.eqb_spec x y); f_equal; lia.
Qed.
End ByHand.
