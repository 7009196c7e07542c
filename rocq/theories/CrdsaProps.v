(** C28-C35: CRDSA. *)
From Coq Require Import ZArith List Lia Bool Permutation Sorting.Sorted.
From Verif Require Import Base RxModel RxSpec RxProofs AlohaModel AlohaSpec AlohaProofs
  CrdsaModel CrdsaSpec CrdsaProofs CrdsaRun CrdsaOnce CrdsaSafe.
Import ListNotations.
Open Scope Z_scope.

(** ** C28 *)

(** m_slotIds is shuffled in place by every Send, so it may be any permutation of the slots. *)
Theorem crdsa_slots : forall n slots slot replicas now tx,
  Permutation slots (set_slots_per_frame n) -> (0 < n)%nat -> 0 < slot -> slot * Z.of_nat n < 2 ^ 63 ->
  (replicas <= n)%nat ->
  exists plan frame, crdsa_send slot slots replicas now tx = Ok plan /\
    next_boundary (slot * Z.of_nat n) now frame /\
    length plan = replicas /\ NoDup (map fst plan) /\
    forall t e, In (t, e) plan -> e = t + tx /\ exists k, 0 <= k < Z.of_nat n /\ t = frame + k * slot.
Proof.
  intros n slots slot replicas now tx P N S B R.
  assert (L : length slots = n).
  { rewrite (Permutation_length P). unfold set_slots_per_frame. rewrite map_length, seq_length. auto. }
  assert (In_ : forall k, In k slots -> 0 <= k < Z.of_nat n).
  { intros k I. apply (Permutation_in _ P) in I. unfold set_slots_per_frame in I. apply in_map_iff in I.
    destruct I as (i & <- & I). apply in_seq in I. lia. }
  assert (Nd : NoDup slots).
  { apply (Permutation_NoDup (Permutation_sym P)). unfold set_slots_per_frame.
    apply FinFun.Injective_map_NoDup; [intros a b; lia|apply seq_NoDup]. }
  unfold crdsa_send, selected_slots. rewrite L.
  rewrite (proj2 (Z.ltb_lt 0 (Z.of_nat n))) by lia. rewrite (proj2 (Z.ltb_lt 0 slot)) by lia. cbn [andb].
  rewrite (proj2 (Nat.ltb_ge n replicas)) by lia. cbn [rbind].
  set (w := time_to_next (slot * Z.of_nat n) now).
  eexists _, (now + w). split; [reflexivity|].
  split; [apply next_boundary_to_next; lia|].
  split; [rewrite map_length, firstn_length, L; lia|].
  assert (Nf : NoDup (firstn replicas slots)).
  { clear -Nd. revert replicas. induction Nd as [|x l Nx Nd IH]; intros r; [rewrite firstn_nil; constructor|].
    destruct r; cbn [firstn]; constructor; auto. intros I. apply Nx. rewrite <- (firstn_skipn r l). apply in_or_app; auto. }
  assert (If : incl (firstn replicas slots) slots).
  { intros x I. rewrite <- (firstn_skipn replicas slots). apply in_or_app; auto. }
  split.
  - rewrite map_map. cbn [fst]. apply FinFun.Injective_map_NoDup; auto.
    intros a b H. apply (Z.mul_reg_r a b slot); lia.
  - intros t e I. apply in_map_iff in I. destruct I as (k & I & Ik). injection I as <- <-. split; [reflexivity|].
    exists k. split; [auto|]. lia.
Qed.
Print Assumptions crdsa_slots.

(** Frames of 4 slots of 5: slots 3 and 1 of the frame that starts at 40. *)
Example crdsa_slots_ex : crdsa_send 5 [3; 1; 0; 2] 2 23 4 = Ok [(55, 59); (45, 49)] /\
  Permutation [3; 1; 0; 2] (set_slots_per_frame 4).
Proof.
  split; [vm_compute; reflexivity|]. cbn.
  apply NoDup_Permutation; [repeat constructor; cbn; intuition lia|repeat constructor; cbn; intuition lia|cbn; intuition].
Qed.

(** ** C29 *)

Definition rejected {A} (r : result A) : Prop := r = Assert \/ r = Abort.

Theorem too_many_replicas_refuted :
  ~ (forall slot slots replicas now tx, (length slots < replicas)%nat ->
       rejected (crdsa_send slot slots replicas now tx)).
Proof. intros H. destruct (H 5 [1; 0] 3%nat 0 1) as [X|X]; [cbn; lia|discriminate|discriminate]. Qed.
Print Assumptions too_many_replicas_refuted.

(** The read is outside the table exactly when there are too many replicas; missing: the rejection. *)
Theorem too_many_replicas_partial : forall slot slots replicas now tx,
  (crdsa_send slot slots replicas now tx = UB <-> (length slots < replicas)%nat) /\
  ((replicas <= length slots)%nat -> exists plan, crdsa_send slot slots replicas now tx = Ok plan /\ length plan = replicas).
Proof.
  intros. unfold crdsa_send, selected_slots. destruct (Nat.ltb_spec (length slots) replicas); cbn [rbind].
  - split; [tauto|lia].
  - split; [split; [discriminate|lia]|]. intros _. eexists. split; [reflexivity|]. rewrite map_length, firstn_length. lia.
Qed.
Print Assumptions too_many_replicas_partial.

Example too_many_replicas_ex : crdsa_send 5 [1; 0] 3 0 1 = UB /\ crdsa_send 5 [1; 0] 2 0 1 = Ok [(5, 6); (0, 1)].
Proof. split; vm_compute; reflexivity. Qed.

(** ** C30 *)

Definition sum (l : list Z) : Z := fold_right Z.add 0 l.

Lemma sum_app : forall a b, sum (a ++ b) = sum a + sum b.
Proof. unfold sum. induction a as [|x a IH]; intros; cbn [app fold_right]; [lia|]. rewrite IH. lia. Qed.

Lemma num_replicas_loop_spec : forall coeffs p n s, Forall (fun c => 0 <= c) coeffs -> s <= p ->
  (exists i c, num_replicas_loop p n s coeffs = Ok (u16 (n + Z.of_nat i)) /\ nth_error coeffs i = Some c /\ 0 < c /\
     s + sum (firstn i coeffs) <= p < s + sum (firstn i coeffs) + c) \/
  (num_replicas_loop p n s coeffs = Abort /\ s + sum coeffs <= p).
Proof.
  induction coeffs as [|c l IH]; intros p n s F L; cbn [num_replicas_loop].
  - right. cbn. split; auto. lia.
  - inversion F; subst. destruct (Z.ltb_spec 0 c) as [C|C], (Z.ltb_spec p (s + c)) as [P|P]; cbn [andb].
    + left. exists O, c. rewrite Z.add_0_r. cbn. repeat split; auto; lia.
    + destruct (IH p (n + 1) (s + c) H2 ltac:(lia)) as [(i & c' & E & N & Pc & B)|[E B]].
      * left. exists (S i), c'. rewrite E. cbn [nth_error firstn sum fold_right]. fold (sum (firstn i l)).
        repeat split; auto; try lia. f_equal. f_equal. lia.
      * right. cbn [sum fold_right]. fold (sum l). split; auto. lia.
    + exfalso. assert (c = 0) by lia. lia.
    + destruct (IH p (n + 1) (s + c) H2 ltac:(lia)) as [(i & c' & E & N & Pc & B)|[E B]].
      * left. exists (S i), c'. rewrite E. cbn [nth_error firstn sum fold_right]. fold (sum (firstn i l)).
        repeat split; auto; try lia. f_equal. f_equal. lia.
      * right. cbn [sum fold_right]. fold (sum l). split; auto. lia.
Qed.

(** The coefficient of x^n is the weight of n replicas.  A sample is non-negative (UniformRandomVariable). *)
Theorem replicas_by_inversion : forall coeffs p, 2 <= Z.of_nat (length coeffs) <= 65536 -> nth_error coeffs 0 = Some 0 ->
  Forall (fun c => 0 <= c) coeffs -> 0 <= p ->
  (p < sum coeffs -> exists n c, num_replicas coeffs p = Ok (Z.of_nat n) /\ (1 <= n)%nat /\
     nth_error coeffs n = Some c /\ 0 < c /\ sum (firstn n coeffs) <= p < sum (firstn (S n) coeffs) /\
     forall m, sum (firstn m coeffs) <= p < sum (firstn (S m) coeffs) -> m = n) /\
  (num_replicas coeffs p = Abort <-> sum coeffs <= p).
Proof.
  intros coeffs p L H0 F P. destruct coeffs as [|c0 [|c1 l]]; cbn [length] in L; try lia.
  injection H0 as ->. unfold num_replicas. cbn [Z.eqb assert_ rbind].
  inversion F; subst. destruct (num_replicas_loop_spec (c1 :: l) p 1 0 H2 P) as [(i & c & E & N & C & B)|[E B]].
  - assert (Li : (i < length (c1 :: l))%nat) by (apply nth_error_Some; congruence).
    assert (Bn : sum (firstn (S i) (0 :: c1 :: l)) <= p < sum (firstn (S (S i)) (0 :: c1 :: l))).
    { cbn [firstn sum fold_right]. fold (sum (firstn i (c1 :: l))).
      assert (G : firstn (S i) (c1 :: l) = firstn i (c1 :: l) ++ [c]).
      { clear -N. revert N. generalize (c1 :: l). induction i; intros [|x t] N; cbn in *; try discriminate.
        - injection N as ->. reflexivity.
        - f_equal. apply IHi. auto. }
      assert (G2 : sum (firstn (S i) (c1 :: l)) = sum (firstn i (c1 :: l)) + c) by (rewrite G, sum_app; cbn; lia).
      cbn [firstn sum fold_right] in G2 |- *. lia. }
    assert (Mono : forall (m n : nat) cs, Forall (fun c => 0 <= c) cs -> (m <= n)%nat -> sum (firstn m cs) <= sum (firstn n cs)).
    { clear. unfold sum. intros m n cs F. revert m n. induction F as [|x t Hx F IH]; intros m n Hmn.
      - rewrite !firstn_nil. lia.
      - destruct m, n; cbn; try lia.
        + specialize (IH O n ltac:(lia)). cbn in IH. lia.
        + specialize (IH m n ltac:(lia)). lia. }
    split.
    + intros _. exists (S i), c. rewrite E. replace (1 + Z.of_nat i) with (Z.of_nat (S i)) by lia.
      unfold u16. rewrite Z.mod_small by (cbn [length] in Li; lia).
      split; [reflexivity|]. split; [lia|]. split; [exact N|]. split; [auto|]. split; [exact Bn|].
      intros m Bm. destruct (Nat.lt_trichotomy m (S i)) as [G|[G|G]]; auto; exfalso.
      * pose proof (Mono (S m) (S i) _ F ltac:(lia)). lia.
      * pose proof (Mono (S (S i)) m _ F ltac:(lia)). lia.
    + split; [congruence|]. intros X. exfalso.
      pose proof (Mono (S (S i)) (length (0 :: c1 :: l)) (0 :: c1 :: l) F ltac:(cbn [length] in *; lia)) as M.
      rewrite firstn_all in M. lia.
  - cbn [sum fold_right]. split; [intros X; exfalso; cbn [sum fold_right] in B; lia|].
    split; [intros _; cbn [sum fold_right] in B; lia|auto].
Qed.
Print Assumptions replicas_by_inversion.

(** 0.5 x^2 + 0.28 x^3 + 0.22 x^8, in hundredths. *)
Example replicas_by_inversion_ex :
  let cs := [0; 0; 50; 28; 0; 0; 0; 0; 22] in
  num_replicas cs 0 = Ok 2 /\ num_replicas cs 49 = Ok 2 /\ num_replicas cs 50 = Ok 3 /\ num_replicas cs 78 = Ok 8 /\
  num_replicas cs 99 = Ok 8 /\ num_replicas cs 100 = Abort.
Proof. vm_compute. repeat split; reflexivity. Qed.

(** ** C31 *)

(** [p] is passed up at most once, if up to the end [st_now s1] of the last busy period with a replica of
    [p] no more than two frames have passed since it was passed up. *)
Definition at_most_once (below : Z -> Z -> bool) (two : Z) (ops1 ops2 : list rx_op) (p : Z) : Prop :=
  forall g s1 s2, rx_run (crdsa_mac below two) (rx_init (crdsa_init g)) ops1 = Some (Ok s1) ->
    st_pending s1 = [] ->
    rx_run (crdsa_mac below two) s1 ops2 = Some (Ok s2) ->
    replicas p ops2 = 0%nat ->
    (forall a up, In (a, up) (st_log s1) -> In p up -> st_now s1 <= rx_end a + two) ->
    (times_up p (st_log s2) <= 1)%nat.

(** False if a replica starts while another one of the same packet is being received: frame [9,13) with
    packet 2 is taken for the last of the busy period although packet 1 lasts until 15. *)
Theorem crdsa_once_refuted :
  ~ (forall two ops1 ops2 p, 0 <= two -> sane (ops1 ++ ops2) -> at_most_once no_capture two ops1 ops2 p).
Proof.
  intros H.
  set (ops1 := [OStart 0 1 10 1; OStart 0 2 8 1; OStart 5 1 10 1; OFinish; OStart 9 2 4 1; OFinish; OFinish; OFinish]).
  set (ops2 := [OStart 33 3 1 1; OFinish]).
  assert (R : exists s1 s2, rx_run (crdsa_mac no_capture 20) (rx_init (crdsa_init 0)) ops1 = Some (Ok s1) /\
    st_pending s1 = [] /\ rx_run (crdsa_mac no_capture 20) s1 ops2 = Some (Ok s2) /\
    (forall a up, In (a, up) (st_log s1) -> In 2 up -> st_now s1 <= rx_end a + 20) /\ times_up 2 (st_log s2) = 2%nat).
  { eexists _, _. split; [vm_compute; reflexivity|]. split; [reflexivity|]. split; [vm_compute; reflexivity|].
    split; [|reflexivity]. cbn. intros a up I J.
    repeat (destruct I as [I|I]; [injection I as <- <-; cbn in *; lia|]). contradiction. }
  destruct R as (s1 & s2 & R1 & E & R2 & Hl & T).
  specialize (H 20 ops1 ops2 2 ltac:(lia)). unfold at_most_once in H.
  assert (X : (times_up 2 (st_log s2) <= 1)%nat).
  { apply (H ltac:(repeat constructor; cbn; lia) 0 s1 s2); auto. }
  lia.
Qed.
Print Assumptions crdsa_once_refuted.

(** True for any capture model, any order of events at equal times and any number of replicas, if replicas
    of one packet do not overlap at the receiver; missing: overlapping replicas, where it is false. *)
Theorem crdsa_once_partial : forall below two ops1 ops2 p, 0 <= two ->
  sane (ops1 ++ ops2) -> separate [] (ops1 ++ ops2) -> at_most_once below two ops1 ops2 p.
Proof.
  intros below two ops1 ops2 p T Sa Se g s1 s2 R1 E R2 N Hl.
  assert (Sa1 : sane ops1). { unfold sane in *. rewrite receptions_app, Forall_app in Sa. tauto. }
  pose proof (separate_prefix _ _ _ Se) as Se1.
  assert (St : stands p s1) by (apply (once_first_phase below two g T p ops1 s1 R1 Sa1 Se1 (st_now s1)); auto; lia).
  destruct (once_second_phase below two g T p ops1 s1 R1 E Sa1 Se1 St ops2 s2 R2 Sa Se N) as (G & _).
  apply stands_at_most_once; auto.
Qed.
Print Assumptions crdsa_once_partial.

(** Packet 1 arrives alone twice, packet 2 collides with it in a third slot and is recovered. *)
Example crdsa_once_ex :
  let ops := [OStart 0 1 10 1; OStart 3 2 10 1; OFinish; OFinish; OStart 20 1 10 1; OFinish; OStart 40 1 10 1; OFinish] in
  separate [] ops /\
  match rx_run (crdsa_mac no_capture 100) (rx_init (crdsa_init 0)) ops with
  | Some (Ok s) => map snd (st_log s) = [[]; []; [1; 2]; []] | _ => False end.
Proof. split; [repeat (split; [repeat constructor; cbn; lia|])|]; vm_compute; auto. Qed.

(** ** C32 *)

Definition passed (rec : list (Z * Z)) (u : Z) : Prop := In u (map fst rec).

(** For arbitrary stored collisions (each a set of packets) and records: the loop ends; a packet is recovered
    only when it is the only one missing from a collision, and once; all that can be recovered is; what is
    left of a collision is what is missing; and nothing is left alone. *)
Theorem cancellation : forall now act rec, Forall (fun c => NoDup (snd c)) act ->
  (cancel (S (pass_size act)) now act rec = UB \/ exists x, cancel (S (pass_size act)) now act rec = Ok x) /\
  forall act' rec' up, cancel (S (pass_size act)) now act rec = Ok (act', rec', up) ->
    (forall u1 u u2, up = u1 ++ u :: u2 -> only_missing act (fun v => passed rec v \/ In v u1) u) /\
    (forall u, In u up <-> recoverable act (passed rec) u) /\
    (forall u, passed rec' u <-> passed rec u \/ In u up) /\
    (forall u, ~ only_missing act (passed rec') u) /\
    (forall t set, In (t, set) act' <->
       set <> [] /\ exists all, In (t, all) act /\ set = filter (fun u => negb (memz u (map fst rec'))) all).
Proof.
  intros now act rec Nd. split; [apply cancel_enough|]. intros act' rec' up E.
  pose proof (cancel_recoverable _ _ _ _ _ _ _ E Nd) as Rc.
  destruct (cancel_ok _ _ _ _ _ _ _ E) as (H1 & H2 & H3 & H4 & H5 & H6).
  rewrite Forall_forall in Nd.
  split; [|split; [|split; [|split]]]; auto.
  - intros u1 u u2 Eu. destruct (H6 u1 u u2 Eu) as (p & Ip & Iu & F). split.
    + intros [X|X].
      * apply (H3 u); auto. rewrite Eu. apply in_or_app; right; left; auto.
      * rewrite Eu in H2. apply NoDup_remove_2 in H2. apply H2. apply in_or_app; auto.
    + exists p. auto.
  - intros u. unfold passed. rewrite H1, grown_in. tauto.
  - intros u (Ng & c & Ic & Iu & F). apply (H5 c Ic u). specialize (Nd c Ic).
    assert (Mm : forall v, In v (missing rec' (snd c)) <-> v = u).
    { intros v. rewrite missing_in. split.
      - intros [Iv Nv]. destruct (Z.eq_dec v u); auto. exfalso. apply Nv. apply F; auto.
      - intros ->. auto. }
    assert (Nm : NoDup (missing rec' (snd c))) by (apply NoDup_filter; auto).
    destruct (missing rec' (snd c)) as [|a [|b l]].
    + exfalso. apply (Mm u). reflexivity.
    + f_equal. apply Mm. left; auto.
    + exfalso. inversion Nm; subst. apply H7. left. etransitivity; [|symmetry]; apply Mm; [right; left|left]; auto.
  - intros t set. rewrite H4, remaining_in. split.
    + intros ((t', all) & Ip & Eq & Ne). cbn [reduce fst snd] in Eq. injection Eq as -> ->. split; auto.
      exists all. split; auto.
    + intros (Ne & all & Ip & ->). exists (t, all). split; auto.
Qed.
Print Assumptions cancellation.

(** Once a busy period has been processed no stored collision lacks exactly one packet. *)
Theorem cancellation_settled : forall below two g ops s,
  rx_run (crdsa_mac below two) (rx_init (crdsa_init g)) ops = Some (Ok s) -> sane ops -> separate [] ops ->
  st_pending s = [] -> forall u, ~ only_missing (cr_active (st_mac s)) (passed (cr_received (st_mac s))) u.
Proof.
  intros below two g ops s R Sa Se Em u (Ng & c & Ic & Iu & F).
  destruct (cr_inv_holds below two g ops s R Sa Se) as (_ & _ & _ & _ & _ & I6 & _).
  rewrite Forall_forall in I6. destruct (I6 c Ic) as [_ So]. apply sorted_nodup in So.
  destruct ops as [|o ops _] using rev_ind; [inversion R; subst; contradiction|].
  apply rx_run_snoc in R. destruct R as (s0 & R & E). destruct o as [t v x p|]; cbn [rx_step] in E.
  - destruct (_ && _); [|discriminate]. injection E as <-. cbn [st_pending] in Em.
    pose proof (proj2 (schedule_in (mkRx v t (t + x) p) (st_pending s0) _) (or_introl eq_refl)) as Y. rewrite Em in Y. contradiction.
  - destruct (st_pending s0) as [|r l] eqn:Ep; [discriminate|]. cbn [crdsa_mac mac_finish] in E.
    destruct (crdsa_finish below two (st_mac s0) r) as [[m' up]| | |] eqn:Ef; cbn [rbind] in E; try discriminate.
    injection E as <-. cbn [st_mac st_pending] in *. subst l.
    destruct (cr_owner_iff below two g ops s0 r [] R (sane_app _ _ Sa) (separate_prefix _ _ _ Se) Ep) as [Ow _].
    destruct (crdsa_finish_cases _ _ _ _ _ _ Ef) as (rec1 & up1 & _ & _ & C). cbv zeta in C.
    destruct C as [(X & _)|(_ & act2 & rec2 & act3 & rec3 & up2 & _ & _ & Ec & -> & _)]; [tauto|].
    cbn [cr_active cr_received] in *. destruct (cancel_ok _ _ _ _ _ _ _ Ec) as (_ & _ & _ & K4 & K5 & _).
    rewrite K4 in Ic. apply remaining_in in Ic. destruct Ic as (p & Ip & -> & _). apply (K5 p Ip u).
    cbn [reduce snd] in *.
    assert (G : forall v, In v (missing rec3 (snd p)) -> v = u).
    { intros v Iv. destruct (Z.eq_dec v u); auto. exfalso. apply missing_in in Iv as Iv'. apply (proj2 Iv'). apply F; auto. }
    destruct (missing rec3 (snd p)) as [|a [|b l]]; [contradiction|f_equal; apply G; left; auto|].
    exfalso. inversion So; subst. apply H1. left. rewrite (G a), (G b); auto; [right; left|left]; auto.
Qed.
Print Assumptions cancellation_settled.

(** A chain: 1 is known, which gives 2, then 3; 4 and 5 stay. *)
Example cancellation_ex :
  cancel 10 9 [(1, [2; 3]); (2, [1; 2]); (3, [3; 4; 5])] [(1, 7)] = Ok ([(3, [4; 5])], [(3, 9); (2, 9); (1, 7)], [2; 3]).
Proof. vm_compute. reflexivity. Qed.

(** ** C33 *)

(** Packets 1 and 2 meet in two slots, and 1 arrives alone in a third. *)
Theorem cancellation_invalid_refuted :
  ~ (forall two ops o, 0 <= two -> sane ops -> separate [] ops -> finish_first [] ops ->
       Forall (fun r => 0 < rx_pow r) (receptions ops) ->
       rx_run (crdsa_mac no_capture two) (rx_init (crdsa_init 0)) ops = Some o -> o <> UB).
Proof.
  intros H.
  apply (H 100 [OStart 0 1 5 1; OStart 0 2 5 1; OFinish; OFinish; OStart 10 1 5 1; OStart 10 2 5 1; OFinish; OFinish;
                OStart 20 1 5 1; OFinish] UB); try lia.
  - repeat constructor; cbn; lia.
  - repeat (split; [repeat constructor; cbn; lia|]). exact I.
  - repeat (split; [repeat constructor; cbn; lia|]). exact I.
  - repeat constructor; cbn; lia.
  - vm_compute. reflexivity.
  - reflexivity.
Qed.
Print Assumptions cancellation_invalid_refuted.

(** With capture two replicas are enough: packets 1 and 2 meet twice, and the second time 1 is captured. *)
Theorem cancellation_capture_refuted :
  ~ (forall below two ops o, 0 <= two -> sane ops -> separate [] ops -> finish_first [] ops ->
       Forall (fun r => 0 < rx_pow r) (receptions ops) -> (forall u, (replicas u ops <= 2)%nat) ->
       rx_run (crdsa_mac below two) (rx_init (crdsa_init 0)) ops = Some o -> o <> UB).
Proof.
  intros H.
  apply (H Z.leb 100 [OStart 0 1 5 1; OStart 0 2 5 1; OFinish; OFinish; OStart 10 1 5 4; OStart 10 2 6 1; OFinish; OFinish] UB); try lia.
  - repeat constructor; cbn; lia.
  - repeat (split; [repeat constructor; cbn; lia|]). exact I.
  - repeat (split; [repeat constructor; cbn; lia|]). exact I.
  - repeat constructor; cbn; lia.
  - intros u. unfold replicas. cbn [receptions flat_map app filter rx_uid].
    destruct (Z.eqb_spec 1 u), (Z.eqb_spec 2 u); cbn [length]; lia.
  - vm_compute. reflexivity.
  - reflexivity.
Qed.
Print Assumptions cancellation_capture_refuted.

(** With at most two replicas of each packet, without capture and without ties, no schedule leads to it;
    missing: three or more replicas, or capture, where it is false. *)
Theorem cancellation_invalid_partial : forall below two g ops o, (forall p i, 0 < i -> below p i = true) ->
  rx_run (crdsa_mac below two) (rx_init (crdsa_init g)) ops = Some o ->
  sane ops -> separate [] ops -> finish_first [] ops ->
  Forall (fun r => 0 < rx_pow r) (receptions ops) -> (forall u, (replicas u ops <= 2)%nat) ->
  exists s, o = Ok s.
Proof.
  intros below two g ops o NC R Sa Se Ff Po Rp.
  destruct (two_holds below two g NC ops o R Sa Se Ff Po Rp) as (s & -> & _). eauto.
Qed.
Print Assumptions cancellation_invalid_partial.

(** Exactly what goes wrong, for any state: two collisions run empty in the same pass. *)
Theorem cancellation_pass_invalid : forall act rec,
  (cancel_pass act rec = UB <->
     exists a p b q c, act = a ++ p :: b ++ q :: c /\ (forall u, In u (snd p) -> passed rec u) /\ (forall u, In u (snd q) -> passed rec u)).
Proof.
  intros act rec. unfold cancel_pass.
  change (filter _ (map _ act)) with (filter is_empty (map (reduce rec) act)) at 1.
  rewrite pass_empty_count.
  assert (A : forall p, all_rec rec p = true <-> forall u, In u (snd p) -> passed rec u).
  { intros p. unfold all_rec. rewrite forallb_forall. split; intros H u I.
    - apply received_in. exact (H u I).
    - apply received_in. exact (H u I). }
  destruct (Nat.ltb_spec 1 (cnt (all_rec rec) act)) as [L|L].
  - split; [intros _|reflexivity]. unfold cnt in L.
    assert (G : forall l, (1 <= length (filter (all_rec rec) l))%nat -> exists a p c, l = a ++ p :: c /\ all_rec rec p = true /\
      length (filter (all_rec rec) c) = (length (filter (all_rec rec) l) - 1)%nat).
    { clear. induction l as [|x l IH]; intros L; cbn [filter] in L; [cbn in L; lia|].
      destruct (all_rec rec x) eqn:E.
      - exists [], x, l. cbn [app filter]. rewrite E. cbn [length]. repeat split; auto. lia.
      - destruct (IH L) as (a & p & c & -> & Ap & Lc). exists (x :: a), p, c. cbn [app filter]. rewrite E. auto. }
    destruct (G act ltac:(lia)) as (a & p & r & -> & Ap & Lr).
    destruct (G r ltac:(lia)) as (b & q & c & -> & Aq & _).
    exists a, p, b, q, c. split; auto. split; apply A; auto.
  - split; [discriminate|]. intros (a & p & b & q & c & -> & Ap & Aq). exfalso.
    apply A in Ap. apply A in Aq. unfold cnt in L. rewrite filter_app in L. cbn [filter] in L. rewrite Ap in L.
    rewrite filter_app in L. cbn [filter] in L. rewrite Aq in L. rewrite app_length in L. cbn [length] in L.
    rewrite app_length in L. cbn [length] in L. lia.
Qed.
Print Assumptions cancellation_pass_invalid.

Example cancellation_invalid_ex :
  let ops := [OStart 0 1 5 1; OStart 0 2 5 1; OFinish; OFinish; OStart 10 1 5 1; OStart 10 3 5 1; OFinish; OFinish;
              OStart 20 2 5 1; OFinish] in
  (forall u, In u [1; 2; 3] -> (replicas u ops <= 2)%nat) /\
  match rx_run (crdsa_mac no_capture 100) (rx_init (crdsa_init 0)) ops with
  | Some (Ok s) => map snd (st_log s) = [[]; []; []; []; [2; 1; 3]] | _ => False end.
Proof. split; [intros u [<-|[<-|[<-|[]]]]; vm_compute; lia|vm_compute; reflexivity]. Qed.

(** ** C34 *)

(** [a] ends a busy period in state [s], leading to [s'].  [two] is two frames. *)
Definition keeps_two_frames (two : Z) (s s' : rx_state crdsa) : Prop :=
  let limit := st_now s' - two in
  (forall q, In q (cr_active (st_mac s')) -> limit < fst q) /\
  (forall q u, In q (cr_active (st_mac s)) -> limit < fst q -> In u (snd q) ->
     passed (cr_received (st_mac s')) u \/ exists q', In q' (cr_active (st_mac s')) /\ fst q' = fst q /\ In u (snd q')) /\
  (forall u t, In (u, t) (cr_received (st_mac s')) -> limit <= t) /\
  (forall u t, In (u, t) (cr_received (st_mac s)) -> limit <= t -> In (u, t) (cr_received (st_mac s'))).

Definition history (below : Z -> Z -> bool) (two : Z) (ops : list rx_op) : Prop :=
  forall g s a s', rx_run (crdsa_mac below two) (rx_init (crdsa_init g)) ops = Some (Ok s) -> st_pending s = [a] ->
    rx_step (crdsa_mac below two) s OFinish = Some (Ok s') -> keeps_two_frames two s s'.

(** False if replicas of a packet overlap: the busy period of the overlapping replica is stored with an end
    that is yet to come, before others, and protects those from being dropped. *)
Theorem history_refuted : ~ (forall two ops, 0 <= two -> sane ops -> history no_capture two ops).
Proof.
  intros H.
  set (ops := [OStart 0 1 10 1; OStart 1 2 8 1; OStart 8 1 22 1; OFinish; OFinish; OStart 11 3 2 1; OStart 12 4 2 1; OFinish;
               OFinish; OFinish; OStart 35 5 1 1]).
  assert (R : exists s a s', rx_run (crdsa_mac no_capture 10) (rx_init (crdsa_init 0)) ops = Some (Ok s) /\ st_pending s = [a] /\
    rx_step (crdsa_mac no_capture 10) s OFinish = Some (Ok s') /\ st_now s' = 36 /\ In (14, [3; 4]) (cr_active (st_mac s'))).
  { eexists _, _, _. split; [vm_compute; reflexivity|]. split; [reflexivity|]. split; [vm_compute; reflexivity|].
    split; [reflexivity|]. cbn. auto. }
  destruct R as (s & a & s' & R & Ep & E & N & I).
  destruct (H 10 ops ltac:(lia) ltac:(repeat constructor; cbn; lia) 0 s a s' R Ep E) as (K & _).
  specialize (K _ I). rewrite N in K. cbn in K. lia.
Qed.
Print Assumptions history_refuted.

(** True for any capture model and any order at equal times; missing: overlapping replicas of one packet,
    where it is false. *)
Theorem history_partial : forall below two ops, 0 <= two -> sane ops -> separate [] ops -> history below two ops.
Proof.
  intros below two ops T Sa Se g s a s' R Ep E.
  destruct (cr_inv_holds below two g ops s R Sa Se) as (_ & _ & _ & _ & I5 & I6 & _).
  destruct (base_inv_holds _ _ _ _ _ R Sa) as (_ & _ & Fn & _). rewrite Ep in Fn. inversion Fn; subst. clear H2.
  cbn [rx_step] in E. rewrite Ep in E. cbn [crdsa_mac mac_finish] in E.
  destruct (crdsa_finish below two (st_mac s) a) as [[m' up]| | |] eqn:Ef; cbn [rbind] in E; try discriminate.
  injection E as <-. unfold keeps_two_frames. cbn [st_now st_mac].
  destruct (cr_owner_iff below two g ops s a [] R Sa Se Ep) as [Ow Of]. specialize (Of eq_refl).
  destruct (crdsa_finish_cases _ _ _ _ _ _ Ef) as (rec1 & up1 & C1 & C2 & C). cbv zeta in *.
  set (hc := al_coll (cr_busy (st_mac s)) && below (rx_pow a) (al_power (cr_busy (st_mac s)) - rx_pow a)) in *.
  destruct C as [(X & _)|(_ & act2 & rec2 & act3 & rec3 & up2 & E2 & E3 & Ec & -> & _)]; [tauto|].
  cbn [cr_active cr_received]. destruct (cancel_ok _ _ _ _ _ _ _ Ec) as (K1 & _ & _ & K4 & _).
  assert (O : ordered (if hc then cr_active (st_mac s) ++ [(al_finish (cr_busy (st_mac s)), cr_set (st_mac s))] else cr_active (st_mac s))).
  { destruct hc; auto. apply ordered_snoc; auto. rewrite Of. eapply Forall_impl; [|exact I6]. cbn. intros q [A _]. lia. }
  rewrite clean_periods_ordered in E2 by auto.
  assert (Old : forall u t, In (u, t) (cr_received (st_mac s)) -> In (u, t) rec1).
  { intros u t I. destruct (bool_dec hc true) as [Hc|Hc].
    - destruct C1 as [-> _]; auto.
    - apply not_true_is_false in Hc. destruct (in_dec Z.eq_dec (rx_uid a) (map fst (cr_received (st_mac s)))).
      + destruct C1 as [-> _]; auto.
      + destruct C2 as [-> _]; auto. right; auto. }
  split; [|split; [|split]].
  - intros q I. rewrite K4 in I. apply remaining_in in I. destruct I as (p & Ip & -> & _).
    rewrite E2 in Ip. apply filter_In in Ip. destruct Ip as [_ L]. apply Z.ltb_lt in L. exact L.
  - intros q u Iq L Iu. assert (I2 : In q act2).
    { rewrite E2. apply filter_In. split; [|apply Z.ltb_lt; auto]. destruct hc; auto. apply in_or_app; auto. }
    destruct (in_dec Z.eq_dec u (map fst rec3)) as [|Nr]; [left; auto|]. right. exists (reduce rec3 q).
    assert (Im : In u (missing rec3 (snd q))) by (apply missing_in; auto).
    split; [rewrite K4; apply remaining_in; exists q; repeat split; auto; cbn [reduce snd]; intros X; rewrite X in Im; exact Im|].
    split; auto.
  - intros u t I. rewrite K1 in I. unfold grown in I. apply in_app_iff in I. destruct I as [I|I].
    + apply in_rev in I. apply in_map_iff in I. destruct I as (v & Ev & _). injection Ev as _ <-. lia.
    + rewrite E3 in I. unfold clean_received in I. apply filter_In in I. destruct I as [_ L]. cbn in L. apply negb_true_iff, Z.ltb_ge in L. auto.
  - intros u t I L. rewrite K1. unfold grown. apply in_or_app. right. rewrite E3. unfold clean_received. apply filter_In. split; [auto|].
    cbn. apply negb_true_iff, Z.ltb_ge. auto.
Qed.
Print Assumptions history_partial.

(** Two frames of 10: at 36 the collision that ended at 14 goes, the one that ended at 28 stays. *)
Example history_ex :
  let ops := [OStart 10 1 4 1; OStart 11 2 3 1; OFinish; OFinish; OStart 25 3 3 1; OStart 26 4 2 1; OFinish; OFinish; OStart 35 5 1 1; OFinish] in
  match rx_run (crdsa_mac no_capture 10) (rx_init (crdsa_init 0)) ops with
  | Some (Ok s) => cr_active (st_mac s) = [(28, [3; 4])] /\ cr_received (st_mac s) = [(5, 36)] | _ => False end.
Proof. vm_compute. auto. Qed.

(** ** C35 *)

(** When the busy period ends (with frame [a]), each of its packets has been passed up or is in a collision
    stored at this time. *)
Definition available (below : Z -> Z -> bool) (two : Z) (ops : list rx_op) : Prop :=
  forall g s a s', rx_run (crdsa_mac below two) (rx_init (crdsa_init g)) ops = Some (Ok s) -> st_pending s = [a] ->
    rx_step (crdsa_mac below two) s OFinish = Some (Ok s') ->
    forall b, In b (busy_frames [] [] ops) ->
      (exists c up, In (c, up) (st_log s') /\ In (rx_uid b) up) \/
      (exists set, In (rx_end a, set) (cr_active (st_mac s')) /\ In (rx_uid b) set).

Definition half (p i : Z) : bool := p <? i.

(** False if the last frame is captured: frame 1 is discarded, and lost for cancellation. *)
Theorem collided_available_refuted :
  ~ (forall below two ops, 0 < two -> sane ops -> separate [] ops -> finish_first [] ops -> available below two ops).
Proof.
  intros H. set (ops := [OStart 0 1 10 1; OStart 1 2 10 4; OFinish]).
  assert (R : exists s a s', rx_run (crdsa_mac half 100) (rx_init (crdsa_init 0)) ops = Some (Ok s) /\ st_pending s = [a] /\
    rx_step (crdsa_mac half 100) s OFinish = Some (Ok s') /\ map snd (st_log s') = [[]; [2]] /\ cr_active (st_mac s') = []).
  { eexists _, _, _. split; [vm_compute; reflexivity|]. split; [reflexivity|]. split; [vm_compute; reflexivity|].
    split; reflexivity. }
  destruct R as (s & a & s' & R & Ep & E & L & A).
  destruct (H half 100 ops ltac:(lia) ltac:(repeat constructor; cbn; lia)
    ltac:(repeat (split; [repeat constructor; cbn; lia|]); exact I)
    ltac:(repeat (split; [repeat constructor; cbn; lia|]); exact I) 0 s a s' R Ep E (mkRx 1 0 10 1)) as [(c & up & Ic & Iu)|(set & Is & _)].
  - cbn. auto.
  - apply (in_map snd) in Ic. rewrite L in Ic. cbn in *. destruct Ic as [<-|[<-|[]]]; cbn in Iu; lia.
  - rewrite A in Is. contradiction.
Qed.
Print Assumptions collided_available_refuted.

(** True if the last frame of the busy period is alone or discarded, hence always without capture, when ends
    run before starts at equal times; missing: the last frame captured, where it is false. *)
Theorem collided_available_partial : forall below two ops, 0 < two ->
  sane ops -> separate [] ops -> finish_first [] ops ->
  (forall g s a, rx_run (crdsa_mac below two) (rx_init (crdsa_init g)) ops = Some (Ok s) -> st_pending s = [a] ->
     busy_frames [] [] ops = [a] \/ below (rx_pow a) (total (busy_frames [] [] ops) - rx_pow a) = true) ->
  available below two ops.
Proof.
  intros below two ops T Sa Se Ff Hb g s a s' R Ep E b Ib.
  specialize (Hb g s a R Ep).
  destruct (cr_inv_holds below two g ops s R Sa Se) as (_ & _ & I3 & I4 & I5 & I6 & _).
  destruct (base_inv_holds _ _ _ _ _ R Sa) as (_ & _ & Fn & _). rewrite Ep in Fn. inversion Fn; subst. clear H2.
  destruct (busy_record below two g ops s R Sa Se Ff) as [B1 B2]; [rewrite Ep; discriminate|].
  assert (R' : rx_run (crdsa_mac below two) (rx_init (crdsa_init g)) (ops ++ [OFinish]) = Some (Ok s')).
  { rewrite rx_run_app, R. cbn [rx_run]. rewrite E. reflexivity. }
  pose proof (remembered_logged below two g (ops ++ [OFinish]) s' R') as RL.
  assert (RLs : forall u, passed (cr_received (st_mac s)) u -> exists c up, In (c, up) (st_log s') /\ In u up).
  { intros u I. unfold passed in I. apply in_map_iff in I. destruct I as ((v, t) & <- & I).
    destruct (remembered_logged below two g ops s R v t I) as (c & up & Ic & Iu & _). exists c, up. split; auto.
    apply (step_mono below two s OFinish s' E). auto. }
  cbn [rx_step] in E. rewrite Ep in E. cbn [crdsa_mac mac_finish] in E.
  destruct (crdsa_finish below two (st_mac s) a) as [[m' up]| | |] eqn:Ef; cbn [rbind] in E; try discriminate.
  injection E as <-. cbn [st_log st_mac] in *.
  destruct (cr_owner_iff below two g ops s a [] R Sa Se Ep) as [Ow Of]. specialize (Of eq_refl).
  destruct (crdsa_finish_cases _ _ _ _ _ _ Ef) as (rec1 & up1 & C1 & C2 & C). cbv zeta in *.
  set (hc := al_coll (cr_busy (st_mac s)) && below (rx_pow a) (al_power (cr_busy (st_mac s)) - rx_pow a)) in *.
  destruct C as [(X & _)|(_ & act2 & rec2 & act3 & rec3 & up2 & E2 & E3 & Ec & -> & ->)]; [tauto|].
  cbn [cr_active cr_received] in *. destruct (cancel_ok _ _ _ _ _ _ _ Ec) as (K1 & _ & _ & K4 & _).
  destruct hc eqn:Hc.
  - (* stored *)
    assert (O : ordered (cr_active (st_mac s) ++ [(al_finish (cr_busy (st_mac s)), cr_set (st_mac s))])).
    { apply ordered_snoc; auto. rewrite Of. eapply Forall_impl; [|exact I6]. cbn. intros q [A _]. lia. }
    rewrite clean_periods_ordered in E2 by auto.
    assert (Iset : In (rx_uid b) (cr_set (st_mac s))) by (apply I3; [rewrite Ep; discriminate|apply in_map; auto]).
    destruct (in_dec Z.eq_dec (rx_uid b) (map fst rec3)) as [Ir|Nr].
    + left. apply in_map_iff in Ir. destruct Ir as ((v, t) & Ev & Ir). cbn in Ev. subst v.
      destruct (RL _ _ Ir) as (c & up & Ic & Iu & _). eauto.
    + right. exists (missing rec3 (cr_set (st_mac s))). split; [|apply missing_in; auto].
      rewrite K4. apply remaining_in. exists (al_finish (cr_busy (st_mac s)), cr_set (st_mac s)).
      split; [|split].
      * rewrite E2. apply filter_In. split; [apply in_or_app; right; left; auto|]. cbn [fst]. rewrite Of. apply Z.ltb_lt. lia.
      * unfold reduce. cbn [fst snd]. rewrite Of. reflexivity.
      * cbn [snd]. intros X. assert (Im : In (rx_uid b) (missing rec3 (cr_set (st_mac s)))) by (apply missing_in; auto). rewrite X in Im. contradiction.
  - left. assert (busy_frames [] [] ops = [a]) as Eb.
    { destruct Hb as [|Hb]; auto. unfold hc in Hc. rewrite B1, Hb, andb_true_r in Hc. rewrite B2 in Hc.
      apply Z.ltb_ge in Hc. assert (Ia : In a (busy_frames [] [] ops)) by (apply I4; rewrite Ep; left; auto).
      destruct (busy_frames [] [] ops) as [|x [|y l]] eqn:Eb; [contradiction| |cbn [length] in Hc; lia].
      destruct Ia as [->|[]]. reflexivity. }
    rewrite Eb in Ib. destruct Ib as [<-|[]].
    destruct (in_dec Z.eq_dec (rx_uid a) (map fst (cr_received (st_mac s)))) as [Ir|Ir].
    + auto.
    + destruct C2 as [_ ->]; auto. eexists a, _. split; [apply in_or_app; right; left; reflexivity|]. cbn. auto.
Qed.
Print Assumptions collided_available_partial.

(** Without capture every packet of every busy period is available. *)
Theorem collided_available_no_capture_partial : forall below two ops, 0 < two -> (forall p i, 0 < i -> below p i = true) ->
  sane ops -> separate [] ops -> finish_first [] ops -> Forall (fun r => 0 < rx_pow r) (receptions ops) ->
  available below two ops.
Proof.
  intros below two ops T NC Sa Se Ff Po. apply collided_available_partial; auto.
  intros g s a R Ep. destruct (cr_inv_holds below two g ops s R Sa Se) as (_ & _ & _ & I4 & _).
  assert (Ia : In a (busy_frames [] [] ops)) by (apply I4; rewrite Ep; left; auto).
  pose proof (busy_frames_pos below two g ops s R Po) as Pb.
  destruct (busy_frames [] [] ops) as [|x [|y l]] eqn:Eb; [contradiction|destruct Ia as [->|[]]; auto|].
  right. apply NC. apply total_pos_ge; auto. cbn. lia.
Qed.
Print Assumptions collided_available_no_capture_partial.

(** Frames 1 and 2 overlap, 2 and 3 too: the collision of all three is stored. *)
Example collided_available_ex :
  let ops := [OStart 0 1 10 1; OStart 5 2 10 1; OFinish; OStart 12 3 8 1; OFinish] in
  busy_frames [] [] ops = [mkRx 1 0 10 1; mkRx 2 5 15 1; mkRx 3 12 20 1] /\
  match rx_run (crdsa_mac no_capture 100) (rx_init (crdsa_init 0)) (ops ++ [OFinish]) with
  | Some (Ok s) => cr_active (st_mac s) = [(20, [1; 2; 3])] | _ => False end.
Proof. split; vm_compute; reflexivity. Qed.
