(** C130: CRDSA chooses all sets of slots equally often, for each packet afresh. *)
From Coq Require Import ZArith List Lia Bool Arith Permutation Factorial.
From Verif Require Import Base CrdsaModel ShuffleModel ShuffleSpec ShuffleProofs.
Import ListNotations.
Open Scope nat_scope.

Lemma slots_nodup : forall n, NoDup (set_slots_per_frame n).
Proof. intros n. apply FinFun.Injective_map_NoDup; [intros a b H; lia|apply seq_NoDup]. Qed.
Lemma slots_in : forall n k, In k (set_slots_per_frame n) <-> (0 <= k < Z.of_nat n)%Z.
Proof.
  intros n k. unfold set_slots_per_frame. rewrite in_map_iff. split; [intros (i & <- & H); apply in_seq in H; lia|]. intros H. exists (Z.to_nat k). split; [lia|apply in_seq; lia].
Qed.
Lemma slots_length : forall n, length (set_slots_per_frame n) = n.
Proof. intros n. unfold set_slots_per_frame. rewrite map_length, seq_length. reflexivity. Qed.

(** What can be drawn for [m] packets is listed once each. *)
Theorem rounds_listed : forall n m, NoDup (all_rounds n m) /\ length (all_rounds n m) = fact n ^ m /\
  forall dss, In dss (all_rounds n m) <-> length dss = m /\ Forall (can_draw n) dss.
Proof. intros n m. split; [apply all_rounds_nodup|]. split; [apply all_rounds_length|]. intros dss. apply all_rounds_in. Qed.

(** Whatever is drawn, each packet gets as many different slots of the frame as it has replicas. *)
Theorem slots_chosen : forall n reps dss, Forall (fun r => r <= n) reps -> In dss (all_rounds n (length reps)) ->
  exists sels, select_all (set_slots_per_frame n) reps dss = Ok sels /\ Forall2 (choice n) reps sels.
Proof.
  intros n reps dss F H. apply all_rounds_in in H. destruct H as [L _].
  assert (G : forall reps dss ids, Permutation (set_slots_per_frame n) ids -> Forall (fun r => r <= n) reps -> length dss = length reps -> exists sels, select_all ids reps dss = Ok sels /\ Forall2 (choice n) reps sels).
  { clear. induction reps as [|r reps IH]; intros dss ids P F L; [exists []; split; [destruct dss; reflexivity|constructor]|]. destruct dss as [|d dss]; [discriminate L|]. injection L as L. inversion F as [|? ? Hr F']; subst.
    assert (P' : Permutation (set_slots_per_frame n) (shuffle ids d)) by (eapply Permutation_trans; [exact P|apply from_perm]). pose proof (Permutation_length P') as Lp. rewrite slots_length in Lp.
    destruct (IH dss _ P' F' L) as (sels & E & C). cbn [select_all]. unfold selected_slots. destruct (Nat.ltb_spec (length (shuffle ids d)) r); [lia|]. cbn [rbind]. rewrite E. cbn [rbind].
    eexists. split; [reflexivity|]. constructor; [|exact C]. split; [rewrite firstn_length; lia|]. pose proof (Permutation_NoDup P' (slots_nodup n)) as N. rewrite <- (firstn_skipn r (shuffle ids d)) in N. split; [exact (nodup_left _ _ N)|].
    intros k Hk. apply slots_in, (Permutation_in _ (Permutation_sym P')). rewrite <- (firstn_skipn r (shuffle ids d)). apply in_or_app. left. exact Hk. }
  apply G; [apply Permutation_refl|exact F|exact L].
Qed.

(** All choices for a sequence of packets come about in equally many ways, whatever the numbers of replicas: the product of what
    is left open for each, so that the choices for different packets are independent. *)
Theorem slots_even : forall n reps sels, Forall2 (choice n) reps sels -> ways n reps sels = others n reps.
Proof.
  intros n reps sels F. unfold ways. apply ways_from; [apply slots_nodup|apply slots_length|]. clear - F.
  induction F as [|r s rs ss (A & B & C) F IH]; constructor; [|exact IH]. repeat split; try assumption. intros x Hx. apply slots_in, C, Hx.
Qed.

(** A packet with [r] replicas uses each of the [n] slots in [r] of [n] ways, wherever the shuffling of earlier packets has left the
    slots. *)
Theorem slot_used : forall n ids r s, Permutation (set_slots_per_frame n) ids -> r <= n -> (0 <= s < Z.of_nat n)%Z ->
  n * length (filter (uses ids r s) (all_draws n)) = r * length (all_draws n).
Proof.
  intros n ids r s P Hr Hs. pose proof (Permutation_length P) as L. rewrite slots_length in L.
  assert (U : length (filter (uses ids r s) (all_draws n)) = r * fact (n - 1)).
  { rewrite L at 1 2. rewrite <- (count_used r ids s (Permutation_NoDup P (slots_nodup n))); [|apply (Permutation_in _ P), slots_in; exact Hs|lia].
    f_equal. apply filter_ext. intros ds. unfold uses. cbn [select_all]. unfold selected_slots.
    assert (Lp : length (shuffle ids ds) = length ids) by (symmetry; apply Permutation_length, from_perm). destruct (Nat.ltb_spec (length (shuffle ids ds)) r); [lia|]. reflexivity. }
  rewrite U, all_draws_length. destruct n as [|n]; [lia|]. cbn [Nat.sub]. rewrite Nat.sub_0_r. cbn [fact]. nia.
Qed.
Print Assumptions rounds_listed.
Print Assumptions slots_chosen.
Print Assumptions slots_even.
Print Assumptions slot_used.

(** Frames of four slots, a packet with two replicas and one with three: 2 of 576 ways for each pair of choices; each slot is used
    by half of the ways for the first packet. *)
Example shuffle_case :
  shuffle [0; 1; 2; 3]%Z [0; 2; 1] = [1; 3; 2; 0]%Z /\ length (all_rounds 4 2) = 576 /\
  choice 4 2 [3; 0]%Z /\ choice 4 3 [1; 3; 2]%Z /\ ways 4 [2; 3] [[3; 0]; [1; 3; 2]]%Z = 2 /\ others 4 [2; 3] = 2 /\
  map (fun s => length (filter (uses [2; 0; 3; 1]%Z 2 s) (all_draws 4))) [0; 1; 2; 3]%Z = [12; 12; 12; 12] /\
  select_all (set_slots_per_frame 2) [3] [[0]] = UB.
Proof.
  split; [reflexivity|]. split; [vm_compute; reflexivity|]. split; [|split]. 
  1, 2: split; [reflexivity|]; split; [repeat constructor; cbn; intuition discriminate|intros k H; cbn in H; intuition lia].
  vm_compute. repeat split.
Qed.
