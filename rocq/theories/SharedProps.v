(** C131: applications made by one Poisson helper. *)
From Coq Require Import ZArith QArith Qround List Lia Bool Arith Sorted Permutation.
From Verif Require Import Base HelpersModel TrafficModel TrafficSpec TrafficProofs TrafficProps SharedModel SharedSpec SharedProofs.
Import ListNotations.
Open Scope Z_scope.

(** In whatever order the events of the applications run, none fails; every value drawn goes to one application, once, in order;
    and each application sends at the partial sums of the values it got, to the ns, as far as its limit leaves room. *)
Theorem poisson_shared_partial : forall ns_of bits_of packet draws apps, reads ns_of -> counts bits_of -> 0 < packet < 2 ^ 29 ->
  Forall (fun p => 0 <= fst p /\ fst p + packet <= 2 ^ 64) apps -> (forall i, (0 <= draws i)%Q) ->
  forall l, exists f parts, shared_run ns_of bits_of packet draws (installed apps) l = Ok f /\
    map (fun a => (sa_max a, sa_start a)) (sh_apps f) = apps /\
    Permutation (concat parts) (seq 0 (sh_drawn f)) /\
    Forall2 (fun a p => StronglySorted lt p /\ own_traffic ns_of packet draws a p) (sh_apps f) parts.
Proof.
  intros ns_of bits_of packet draws apps R B Hp Ha Hd l.
  destruct (shared_all ns_of bits_of R B packet draws Hp l _ _ (installed_ok ns_of packet draws apps Ha)) as (f & parts & E & [F P] & M & S).
  exists f, parts. split; [exact E|]. split; [|split; [exact P|]].
  - cbn [installed sh_apps] in M, S. rewrite map_map in M, S. cbn [sa_max sa_start] in M, S. clear - M S. revert apps M S. induction (sh_apps f) as [|a r IH]; intros [|[x y] apps] M S; try discriminate; [reflexivity|].
    cbn in *. injection M as -> M. injection S as -> S. rewrite (IH apps M S). reflexivity.
  - clear - F R Hd Hp. induction F as [|a p l m H F IH]; constructor; [|exact IH]. split; [apply H|]. apply (app_traffic ns_of R packet draws Hp Hd). exact H.
Qed.
Print Assumptions poisson_shared_partial.

(** What an application sends depends on which others there are: with another one that starts at the same time, the second packet
    leaves a second later. *)
Definition count_up (i : nat) : Q := inject_Z (Z.of_nat i + 1).
Ltac run_first := eapply in_time_cons; [
    eexists _, _; split; [reflexivity|]; split; [vm_compute; reflexivity|];
    let b := fresh in let t := fresh in let H := fresh in let D := fresh in
    intros b t H D; cbn [sh_apps In installed map] in H; repeat (destruct H as [<-|H]; [vm_compute in D; first [contradiction|subst t; discriminate]|]); contradiction
  | vm_compute; reflexivity |].
Definition alone : list nat := repeat 0%nat 6.
Definition beside : list nat := [0; 1; 0; 0; 0; 1; 1; 1; 0; 0]%nat.
Lemma alone_in_time : in_time cut exact_bits 1000 count_up (installed [(0, 0)]) alone.
Proof. unfold alone. cbn [repeat]. do 6 run_first. constructor. Qed.
Lemma beside_in_time : in_time cut exact_bits 1000 count_up (installed [(0, 0); (0, 0)]) beside.
Proof. unfold beside. do 10 run_first. constructor. Qed.
Definition sent_first (f : shared) : list Z := match sh_apps f with mkSharedApp _ _ (Running s) :: _ => oo_sent s | _ => [] end.
Lemma exact_counts : counts exact_bits.
Proof. intros ns rate Hn Hr. unfold exact_bits. pose proof (Z.div_pos (ns * rate) (10 ^ 9) ltac:(nia) ltac:(lia)). lia. Qed.
Theorem poisson_shared_refuted : ~ (forall ns_of bits_of packet draws a others l l' f f', reads ns_of -> counts bits_of -> 0 < packet < 2 ^ 29 ->
  (forall i, (0 <= draws i)%Q) ->
  in_time ns_of bits_of packet draws (installed [a]) l -> in_time ns_of bits_of packet draws (installed (a :: others)) l' ->
  shared_run ns_of bits_of packet draws (installed [a]) l = Ok f -> shared_run ns_of bits_of packet draws (installed (a :: others)) l' = Ok f' ->
  length (sent_first f) = length (sent_first f') -> sent_first f = sent_first f').
Proof.
  intros C.
  assert (X : exists f, shared_run cut exact_bits 1000 count_up (installed [(0, 0)]) alone = Ok f /\ sent_first f = [1000000000; 3000000000]) by (eexists; split; vm_compute; reflexivity).
  assert (Y : exists f, shared_run cut exact_bits 1000 count_up (installed [(0, 0); (0, 0)]) beside = Ok f /\ sent_first f = [1000000000; 4000000000]) by (eexists; split; vm_compute; reflexivity).
  destruct X as (f & E & S). destruct Y as (f' & E' & S').
  assert (H : sent_first f = sent_first f'); [|rewrite S, S' in H; discriminate H].
  apply (C cut exact_bits 1000 count_up (0, 0) [(0, 0)] alone beside f f'); [left; reflexivity|exact exact_counts|lia| |exact alone_in_time|exact beside_in_time|exact E|exact E'|rewrite S, S'; reflexivity].
  intros i. unfold count_up, Qle. cbn. lia.
Qed.
Print Assumptions poisson_shared_refuted.

(** * Streams *)

Lemma assign_kept : forall apps st s v, ~ In v (flat_map (fun p => [fst p; snd p]) apps) -> fst (assign_from st apps s) v = st v.
Proof.
  induction apps as [|[on off] apps IH]; intros st s v H; [reflexivity|]. cbn [assign_from]. cbn [flat_map fst snd app In] in H. rewrite IH by tauto.
  unfold set_stream. destruct (Nat.eqb_spec v off) as [->|]; [tauto|]. destruct (Nat.eqb_spec v on) as [->|]; [tauto|reflexivity].
Qed.
Lemma assign_used : forall (apps : list app_vars) st s, snd (assign_from st apps s) = s + 2 * Z.of_nat (length apps).
Proof. induction apps as [|[on off] apps IH]; intros st s; cbn [assign_from length snd]; [lia|]. rewrite IH. lia. Qed.
(** Applications with variables of their own get streams of their own, two each, in order. *)
Theorem streams_own : forall (apps : list app_vars) st s, NoDup (flat_map (fun p => [fst p; snd p]) apps) ->
  let r := assign_streams st apps s in
  snd r = 2 * Z.of_nat (length apps) /\ (forall v, ~ In v (flat_map (fun p => [fst p; snd p]) apps) -> fst r v = st v) /\
  forall k on off, nth_error apps k = Some (on, off) -> fst r on = s + 2 * Z.of_nat k /\ fst r off = s + 2 * Z.of_nat k + 1.
Proof.
  intros apps st s N r. unfold r, assign_streams. cbn [fst snd]. split; [rewrite assign_used; lia|]. split; [intros v H; apply assign_kept, H|]. clear r.
  revert st s N. induction apps as [|[on off] apps IH]; intros st s N [|k] x y E; try discriminate E; cbn [nth_error] in E; cbn [assign_from]; cbn [flat_map fst snd app] in N; inversion N as [|? ? N1 N2]; subst; inversion N2 as [|? ? N3 N4]; subst.
  - injection E as -> ->. rewrite !assign_kept; [|exact N3|intros H; apply N1; right; exact H]. unfold set_stream. rewrite !Nat.eqb_refl.
    destruct (Nat.eqb_spec x y) as [->|]; [exfalso; apply N1; left; reflexivity|]. lia.
  - destruct (IH (set_stream (set_stream st on s) off (s + 1)) (s + 2) N4 k x y E) as [A B]. rewrite A, B. lia.
Qed.
Lemma lora_vars_distinct : forall n, NoDup (flat_map (fun p => [fst p; snd p]) (lora_vars n)).
Proof.
  intros n. unfold lora_vars. assert (E : flat_map (fun p => [fst p; snd p]) (map (fun k => (2 * k, 2 * k + 1)%nat) (seq 0 n)) = seq 0 (2 * n)); [|rewrite E; apply seq_NoDup].
  induction n as [|n IH]; [reflexivity|]. rewrite seq_S, map_app, flat_map_app, IH. cbn [map flat_map fst snd app]. replace (2 * Datatypes.S n)%nat with (Datatypes.S (Datatypes.S (2 * n))) by lia. rewrite !seq_S, <- app_assoc. cbn [app Nat.add].
  rewrite Nat.add_1_r. reflexivity.
Qed.
(** So do those of a LoRa helper. Those of a Poisson helper all draw from the last stream, however many are said to be used. *)
Theorem streams_given_partial : forall n st s,
  (let r := assign_streams st (lora_vars n) s in snd r = 2 * Z.of_nat n /\
    forall k on off, nth_error (lora_vars n) k = Some (on, off) -> fst r on = s + 2 * Z.of_nat k /\ fst r off = s + 2 * Z.of_nat k + 1) /\
  (let r := assign_streams st (poisson_vars n) s in snd r = 2 * Z.of_nat n /\
    forall k on off, nth_error (poisson_vars n) k = Some (on, off) -> fst r on = s + 2 * Z.of_nat n - 2 /\ fst r off = s + 2 * Z.of_nat n - 1).
Proof.
  intros n st s. split.
  - destruct (streams_own (lora_vars n) st s (lora_vars_distinct n)) as (A & _ & C). split; [|exact C]. unfold lora_vars in *. rewrite map_length, seq_length in A. exact A.
  - cbv zeta. split; [unfold assign_streams; cbn [snd]; rewrite assign_used; unfold poisson_vars; rewrite repeat_length; lia|].
    intros k on off E. assert (I := nth_error_In _ _ E). apply repeat_spec in I. injection I as -> ->. unfold assign_streams. cbn [fst].
    assert (Hn : (0 < n)%nat) by (destruct n; [destruct k; discriminate E|lia]). clear E.
    assert (G : forall m st s, let r := assign_from st (poisson_vars (Datatypes.S m)) s in fst r 0%nat = s + 2 * Z.of_nat m /\ fst r 1%nat = s + 2 * Z.of_nat m + 1).
    { induction m as [|m IH]; intros st' s'; [cbn; lia|]. change (poisson_vars (Datatypes.S (Datatypes.S m))) with ((0, 1)%nat :: poisson_vars (Datatypes.S m)). cbn [assign_from].
      destruct (IH (set_stream (set_stream st' 0 s') 1 (s' + 1)) (s' + 2)) as [-> ->]. lia. }
    destruct n as [|m]; [lia|]. destruct (G m st s) as [-> ->]. lia.
Qed.
Theorem streams_given_refuted : ~ (forall n st s k on off, nth_error (poisson_vars n) k = Some (on, off) ->
  fst (assign_streams st (poisson_vars n) s) off = s + 2 * Z.of_nat k + 1).
Proof. intros C. specialize (C 2%nat (fun _ => -1) 10 0%nat 0%nat 1%nat eq_refl). vm_compute in C. discriminate C. Qed.
Print Assumptions streams_own.
Print Assumptions streams_given_partial.
Print Assumptions streams_given_refuted.

(** Three applications, the third with room for one packet, events in order of time: who got which value, and what was sent. *)
Example shared_case :
  rmap (fun f => (sh_drawn f, map (fun a => match sa_state a with Running s => oo_sent s | Waiting => [] end) (sh_apps f)))
    (shared_run cut exact_bits 1000 count_up (installed [(0, 0); (0, 500); (900, 700)]) [0; 1; 2; 0; 0; 0; 1; 1; 1; 2; 2; 0; 0; 0]%nat)
    = Ok (6%nat, [[1000000000; 5000000000]; [2000000500]; [3000000700]]) /\
  in_time cut exact_bits 1000 count_up (installed [(0, 0); (0, 500); (900, 700)]) [0; 1; 2; 0; 0; 0; 1; 1; 1; 2; 2; 0; 0; 0]%nat.
Proof. split; [vm_compute; reflexivity|]. do 14 run_first. constructor. Qed.
Example streams_case : let r := assign_streams (fun _ => -1) (lora_vars 2) 10 in map (fst r) [0; 1; 2; 3; 4]%nat = [10; 11; 12; 13; -1] /\ snd r = 4.
Proof. split; reflexivity. Qed.
