From Coq Require Import ZArith QArith List Lia Bool Arith Permutation.
From Verif Require Import Base SatAddrModel SatAddrProofs ConstellationModel ConstellationSpec.
Import ListNotations.
Open Scope nat_scope.

(** Shape of the grid. *)
Definition shaped (P S : nat) (g : list (list (option dev))) : Prop :=
  length g = P /\ Forall (fun r => length r = S) g.

Definition wf (c : constellation) : Prop := shaped (con_planes c) (con_plane_size c) (con_grid c).

Lemma shaped_new : forall P S, shaped P S (repeat (repeat None S) P).
Proof.
  intros. split; [apply repeat_length|].
  apply Forall_forall. intros x Hx. apply repeat_spec in Hx. subst. apply repeat_length.
Qed.

Lemma con_at_shaped : forall P S g p i, shaped P S g -> p < P -> i < S ->
  exists s, con_at g p i = Ok s.
Proof.
  intros P S g p i [L F] Hp Hi. unfold con_at.
  destruct (nth_error g p) as [row|] eqn:E.
  - apply nth_error_In in E. rewrite Forall_forall in F. apply F in E.
    destruct (nth_error row i) eqn:E2; [eauto|]. apply nth_error_None in E2. lia.
  - apply nth_error_None in E. lia.
Qed.

Lemma con_at_out : forall P S g p i, shaped P S g -> ~ (p < P /\ i < S) -> con_at g p i = UB.
Proof.
  intros P S g p i [L F] N. unfold con_at.
  destruct (nth_error g p) as [row|] eqn:E; [|reflexivity].
  assert (p < length g) by (apply nth_error_Some; congruence).
  apply nth_error_In in E. rewrite Forall_forall in F. apply F in E.
  destruct (nth_error row i) eqn:E2; [|reflexivity].
  assert (i < length row) by (apply nth_error_Some; congruence). lia.
Qed.

Lemma con_at_ok_range : forall P S g p i s, shaped P S g -> con_at g p i = Ok s -> p < P /\ i < S.
Proof.
  intros P S g p i s W E.
  destruct (lt_dec p P), (lt_dec i S); auto;
    rewrite (con_at_out P S g p i W) in E by tauto; discriminate.
Qed.

Lemma con_at_new : forall P S p i, p < P -> i < S ->
  con_at (repeat (repeat None S) P) p i = Ok None.
Proof.
  intros. unfold con_at.
  rewrite (nth_error_nth' _ (repeat None S)) by (rewrite repeat_length; lia).
  rewrite nth_repeat.
  rewrite (nth_error_nth' _ None) by (rewrite repeat_length; lia).
  rewrite nth_repeat. reflexivity.
Qed.

Lemma shaped_put : forall P S g p i d, shaped P S g -> shaped P S (con_put g p i d).
Proof.
  intros P S g p i d [L F]. unfold con_put.
  destruct (nth_error g p) as [row|] eqn:E; [|split; auto].
  split; [rewrite set_nth_length; auto|].
  apply Forall_forall. intros r Hr. apply In_nth_error in Hr. destruct Hr as [n Hn].
  rewrite Forall_forall in F.
  destruct (Nat.eq_dec p n).
  - subst. rewrite set_nth_same in Hn by (apply nth_error_Some; congruence).
    inversion Hn. rewrite set_nth_length. apply F. eapply nth_error_In; eauto.
  - rewrite set_nth_other in Hn by auto. apply F. eapply nth_error_In; eauto.
Qed.

Lemma con_at_put_same : forall P S g p i d, shaped P S g -> p < P -> i < S ->
  con_at (con_put g p i d) p i = Ok (Some d).
Proof.
  intros P S g p i d [L F] Hp Hi. unfold con_put, con_at.
  destruct (nth_error g p) as [row|] eqn:E.
  - rewrite set_nth_same by lia. rewrite set_nth_same; [reflexivity|].
    rewrite Forall_forall in F. rewrite (F row); [lia|]. eapply nth_error_In; eauto.
  - apply nth_error_None in E. lia.
Qed.

Lemma con_at_put_other : forall P S g p i d p' i', shaped P S g -> (p', i') <> (p, i) ->
  con_at (con_put g p i d) p' i' = con_at g p' i'.
Proof.
  intros P S g p i d p' i' [L F] N. unfold con_put, con_at.
  destruct (nth_error g p) as [row|] eqn:E; [|reflexivity].
  destruct (Nat.eq_dec p p').
  - subst. rewrite set_nth_same by (apply nth_error_Some; congruence). rewrite E.
    rewrite set_nth_other; [reflexivity|]. congruence.
  - rewrite set_nth_other by auto. reflexivity.
Qed.

(** Adding *)

Lemma add_ok_inv : forall h c p i d o c' a, wf c -> add_satellite h c p i d o = Ok (c', a) ->
  o = true /\ con_at (con_grid c) p i = Ok None /\ p < con_planes c /\ i < con_plane_size c /\
  c' = mkCon (con_id c) (con_planes c) (con_plane_size c) (con_put (con_grid c) p i d) (con_size c + 1) /\
  a = sat_make h (con_id c) (Z.of_nat p) (Z.of_nat i).
Proof.
  intros h c p i d o c' a W. unfold add_satellite.
  destruct (con_at (con_grid c) p i) as [[s|]| | |] eqn:E; simpl; try discriminate.
  destruct o; simpl; try discriminate. intros Q. inversion Q; subst.
  apply (con_at_ok_range _ _ _ _ _ _ W) in E as R. intuition.
Qed.

Lemma add_free_ok : forall h c p i d, con_at (con_grid c) p i = Ok None ->
  add_satellite h c p i d true =
  Ok (mkCon (con_id c) (con_planes c) (con_plane_size c) (con_put (con_grid c) p i d) (con_size c + 1),
      sat_make h (con_id c) (Z.of_nat p) (Z.of_nat i)).
Proof. intros. unfold add_satellite. rewrite H. reflexivity. Qed.

Lemma add_wf : forall h c p i d o c' a, wf c -> add_satellite h c p i d o = Ok (c', a) -> wf c'.
Proof.
  intros. apply add_ok_inv in H0; auto. destruct H0 as (_ & _ & _ & _ & -> & _).
  unfold wf in *; simpl. apply shaped_put. auto.
Qed.

(** Histories *)

Lemma run_adds_wf : forall h adds c c' l, wf c -> run_adds h c adds = Ok (c', l) ->
  wf c' /\ con_id c' = con_id c /\ con_planes c' = con_planes c /\
  con_plane_size c' = con_plane_size c /\ con_size c' = con_size c + length adds.
Proof.
  induction adds as [|[[p i] d] r IH]; simpl; intros c c' l W E.
  - inversion E; subst. split; [exact W|]. repeat split; lia.
  - destruct (add_satellite h c p i d true) as [[c1 a]| | |] eqn:A; simpl in E; try discriminate.
    destruct (run_adds h c1 r) as [[c2 l2]| | |] eqn:R; simpl in E; try discriminate.
    inversion E; subst. pose proof (add_wf _ _ _ _ _ _ _ _ W A) as W1.
    apply add_ok_inv in A; auto. destruct A as (_ & _ & _ & _ & -> & _).
    apply IH in R; auto. simpl in R. intuition; simpl in *; try congruence; lia.
Qed.

(** After a history, every slot holds what was added there, or what was there before. *)
Lemma run_adds_at : forall h adds c c' l, wf c -> run_adds h c adds = Ok (c', l) ->
  forall p i s, con_at (con_grid c) p i = Ok s ->
  con_at (con_grid c') p i = Ok (match added_at adds p i with Some d => Some d | None => s end) /\
  (s <> None -> added_at adds p i = None).
Proof.
  induction adds as [|[[p i] d] r IH]; simpl; intros c c' l W E p' i' s Hs.
  - inversion E; subst. auto.
  - destruct (add_satellite h c p i d true) as [[c1 a]| | |] eqn:A; simpl in E; try discriminate.
    destruct (run_adds h c1 r) as [[c2 l2]| | |] eqn:R; simpl in E; try discriminate.
    inversion E; subst. pose proof (add_wf _ _ _ _ _ _ _ _ W A) as W1.
    apply add_ok_inv in A; auto. destruct A as (_ & F & Hp & Hi & -> & _).
    destruct ((p' =? p) && (i' =? i)) eqn:B.
    + apply andb_true_iff in B. rewrite !Nat.eqb_eq in B. destruct B; subst.
      assert (Q : con_at (con_put (con_grid c) p i d) p i = Ok (Some d)).
      { eapply con_at_put_same; eauto. }
      destruct (IH _ _ _ W1 R p i (Some d) Q) as [Q1 Q2].
      rewrite (Q2 ltac:(discriminate)) in Q1. split; auto. congruence.
    + assert (N : (p', i') <> (p, i)).
      { intros X; inversion X; subst. rewrite !Nat.eqb_refl in B. discriminate. }
      assert (Q : con_at (con_put (con_grid c) p i d) p' i' = Ok s).
      { erewrite con_at_put_other; eauto. }
      apply (IH _ _ _ W1 R p' i' s Q).
Qed.

Lemma run_adds_admissible : forall h adds c c' l, wf c -> run_adds h c adds = Ok (c', l) ->
  admissible (con_planes c) (con_plane_size c) adds /\
  (forall p i s, con_at (con_grid c) p i = Ok (Some s) -> ~ In (p, i) (map slot_of adds)).
Proof.
  induction adds as [|[[p i] d] r IH]; simpl; intros c c' l W E.
  - split; [split; constructor | auto].
  - destruct (add_satellite h c p i d true) as [[c1 a]| | |] eqn:A; simpl in E; try discriminate.
    destruct (run_adds h c1 r) as [[c2 l2]| | |] eqn:R; simpl in E; try discriminate.
    pose proof (add_wf _ _ _ _ _ _ _ _ W A) as W1.
    apply add_ok_inv in A; auto. destruct A as (_ & F & Hp & Hi & Hc & _).
    destruct (IH _ _ _ W1 R) as [[ND FA] NI].
    assert (Q : con_at (con_grid c1) p i = Ok (Some d)).
    { subst c1. simpl. eapply con_at_put_same; eauto. }
    subst c1; simpl in *.
    split; [split|].
    + constructor; auto. unfold slot_of; simpl. apply (NI p i d Q).
    + constructor; auto.
    + intros p' i' s Hs [X|X].
      * inversion X; subst. congruence.
      * destruct (Nat.eq_dec p p'), (Nat.eq_dec i i'); subst;
        try (rewrite F in Hs; discriminate);
        (eapply (NI p' i' s); [| exact X]; erewrite con_at_put_other; eauto; congruence).
Qed.

Lemma admissible_runs : forall h adds c, wf c ->
  admissible (con_planes c) (con_plane_size c) adds ->
  (forall p i, In (p, i) (map slot_of adds) -> con_at (con_grid c) p i = Ok None) ->
  exists c' l, run_adds h c adds = Ok (c', l).
Proof.
  induction adds as [|[[p i] d] r IH]; simpl; intros c W [ND FA] Hf.
  - eauto.
  - inversion ND; subst. inversion FA; subst. unfold slot_of in *; simpl in *.
    assert (F : con_at (con_grid c) p i = Ok None) by (apply Hf; auto).
    rewrite (add_free_ok h c p i d F). simpl.
    set (c1 := mkCon _ _ _ _ _).
    assert (W1 : wf c1) by (unfold wf; simpl; apply shaped_put; auto).
    destruct (IH c1 W1) as (c2 & l & R).
    + split; auto.
    + intros p' i' Hin. simpl. erewrite con_at_put_other; eauto.
      intros X; inversion X; subst. contradiction.
    + rewrite R. simpl. eauto.
Qed.

(** Addresses returned *)
Lemma run_adds_addrs : forall h adds c c' l, wf c -> run_adds h c adds = Ok (c', l) ->
  l = map (fun a => sat_make h (con_id c) (Z.of_nat (fst (slot_of a))) (Z.of_nat (snd (slot_of a)))) adds.
Proof.
  induction adds as [|[[p i] d] r IH]; simpl; intros c c' l W E.
  - inversion E; reflexivity.
  - destruct (add_satellite h c p i d true) as [[c1 a]| | |] eqn:A; simpl in E; try discriminate.
    destruct (run_adds h c1 r) as [[c2 l2]| | |] eqn:R; simpl in E; try discriminate.
    inversion E; subst. pose proof (add_wf _ _ _ _ _ _ _ _ W A) as W1.
    apply add_ok_inv in A; auto. destruct A as (_ & _ & _ & _ & -> & ->).
    apply IH in R; auto. subst. reflexivity.
Qed.

Lemma added_at_In : forall adds p i d, NoDup (map slot_of adds) -> In (p, i, d) adds ->
  added_at adds p i = Some d.
Proof.
  induction adds as [|[[p' i'] d'] r IH]; simpl; intros p i d ND H; [contradiction|].
  inversion ND; subst. destruct H as [H|H].
  - inversion H; subst. rewrite !Nat.eqb_refl. reflexivity.
  - destruct ((p =? p') && (i =? i')) eqn:B; [|auto].
    apply andb_true_iff in B. rewrite !Nat.eqb_eq in B. destruct B; subst.
    exfalso. apply H2. apply in_map_iff. exists (p', i', d). auto.
Qed.

Lemma added_at_inv : forall adds p i d, added_at adds p i = Some d -> In (p, i, d) adds.
Proof.
  induction adds as [|[[p' i'] d'] r IH]; simpl; intros p i d H; [discriminate|].
  destruct ((p =? p') && (i =? i')) eqn:B; [|auto].
  apply andb_true_iff in B. rewrite !Nat.eqb_eq in B. destruct B; subst. inversion H; auto.
Qed.

Lemma new_wf : forall id P S, wf (con_new id P S).
Proof. intros; unfold wf; simpl. apply shaped_new. Qed.

(** The state after a history from a new constellation. *)
Lemma run_new_at : forall h id P S adds c l, run_adds h (con_new id P S) adds = Ok (c, l) ->
  forall p i, p < P -> i < S -> con_at (con_grid c) p i = Ok (added_at adds p i).
Proof.
  intros. pose proof (con_at_new P S p i H0 H1) as N.
  destruct (run_adds_at _ _ _ _ _ (new_wf id P S) H p i None N) as [Q _].
  rewrite Q. destruct (added_at adds p i); reflexivity.
Qed.

(** ** Listing *)

Lemma grid_ext : forall S (g : list (list (option dev))) f,
  Forall (fun r => length r = S) g ->
  (forall p i, p < length g -> i < S -> con_at g p i = Ok (f p i)) ->
  g = map (fun p => map (fun i => f p i) (seq 0 S)) (seq 0 (length g)).
Proof.
  intros S g f F H. apply nth_error_ext. intros p.
  destruct (lt_dec p (length g)) as [Hp|Hp].
  - rewrite (map_nth_error _ p (seq 0 (length g)) (nth_error_seq _ 0 p Hp)). simpl.
    destruct (nth_error g p) as [row|] eqn:E; [|apply nth_error_None in E; lia].
    f_equal. apply nth_error_ext. intros i.
    assert (LR : length row = S) by (rewrite Forall_forall in F; apply F; eapply nth_error_In; eauto).
    destruct (lt_dec i S) as [Hi|Hi].
    + specialize (H p i Hp Hi). unfold con_at in H. rewrite E in H.
      destruct (nth_error row i) as [s|]; [|discriminate]. inversion H; subst.
      erewrite map_nth_error by (apply nth_error_seq; exact Hi). reflexivity.
    + rewrite (proj2 (nth_error_None row i)) by lia.
      symmetry. apply nth_error_None. rewrite map_length, seq_length. lia.
  - rewrite (proj2 (nth_error_None g p)) by lia.
    symmetry. apply nth_error_None. rewrite map_length, seq_length. lia.
Qed.

Lemma flat_map_map : forall A B C (f : B -> list C) (g : A -> B) l,
  flat_map f (map g l) = flat_map (fun x => f (g x)) l.
Proof. induction l; simpl; congruence. Qed.

Lemma flat_map_flat_map : forall A B C (f : B -> list C) (g : A -> list B) l,
  flat_map f (flat_map g l) = flat_map (fun x => flat_map f (g x)) l.
Proof. induction l; simpl; [reflexivity|]. rewrite flat_map_app. congruence. Qed.

Lemma flat_map_ext' : forall A B (f g : A -> list B) l, (forall x, In x l -> f x = g x) ->
  flat_map f l = flat_map g l.
Proof.
  induction l; simpl; intros; [reflexivity|].
  rewrite H by auto. rewrite IHl; auto.
Qed.

Lemma container_listing : forall h id P S adds c l,
  run_adds h (con_new id P S) adds = Ok (c, l) -> container c = listing P S adds.
Proof.
  intros h id P S adds c l H.
  destruct (run_adds_wf _ _ _ _ _ (new_wf id P S) H) as (W & _ & HP & HS & _).
  destruct W as [L F]. rewrite HP in L. rewrite HS in F. simpl in L, F.
  unfold container.
  rewrite (grid_ext S (con_grid c) (fun p i => added_at adds p i) F)
    by (rewrite L; intros; eapply run_new_at; eauto).
  rewrite L. rewrite flat_map_map. unfold listing, slots.
  rewrite flat_map_flat_map. apply flat_map_ext'. intros p _.
  rewrite !flat_map_map. apply flat_map_ext'. intros i _. simpl.
  destruct (added_at adds p i); reflexivity.
Qed.

Lemma in_slots : forall P S p i, In (p, i) (slots P S) <-> p < P /\ i < S.
Proof.
  intros. unfold slots. rewrite in_flat_map. split.
  - intros (x & Hx & Hy). apply in_map_iff in Hy. destruct Hy as (y & E & Hy).
    inversion E; subst. apply in_seq in Hx. apply in_seq in Hy. lia.
  - intros [Hp Hi]. exists p. split; [apply in_seq; lia|].
    apply in_map_iff. exists i. split; auto. apply in_seq. lia.
Qed.

Lemma NoDup_flat_map_pair : forall (l1 : list nat) (l2 : list nat),
  NoDup l1 -> NoDup l2 -> NoDup (flat_map (fun p => map (fun i => (p, i)) l2) l1).
Proof.
  intros l1 l2 N1 N2. induction N1; simpl; [constructor|].
  assert (G : forall l2', NoDup l2' ->
     NoDup (map (fun i => (x, i)) l2' ++ flat_map (fun p => map (fun i => (p, i)) l2) l)).
  { intros l2' N'. induction N'; simpl; [exact IHN1|]. constructor; auto.
    rewrite in_app_iff. intros [X|X].
    - apply in_map_iff in X. destruct X as (y & E & Hy). inversion E; subst. contradiction.
    - apply in_flat_map in X. destruct X as (y & Hy & Hz).
      apply in_map_iff in Hz. destruct Hz as (z & E & Hz). inversion E; subst. contradiction. }
  apply (G l2 N2).
Qed.

Lemma NoDup_slots : forall P S, NoDup (slots P S).
Proof. intros. apply NoDup_flat_map_pair; apply seq_NoDup. Qed.

Lemma slots_length : forall P S, length (slots P S) = P * S.
Proof.
  intros. unfold slots. rewrite <- (seq_length P 0) at 2. generalize (seq 0 P). induction l; simpl.
  - reflexivity.
  - rewrite app_length, map_length, seq_length, IHl. reflexivity.
Qed.

Lemma flat_map_nil : forall A B (f : A -> list B) l, (forall x, In x l -> f x = []) -> flat_map f l = [].
Proof. induction l; simpl; intros; [reflexivity|]. rewrite H by auto. simpl. auto. Qed.

Lemma added_at_not_in : forall adds p i, ~ In (p, i) (map slot_of adds) -> added_at adds p i = None.
Proof.
  intros. destruct (added_at adds p i) eqn:E; [|reflexivity].
  apply added_at_inv in E. exfalso. apply H. apply in_map_iff. exists (p, i, n). auto.
Qed.

Lemma listing_gen : forall (sl : list (nat * nat)) adds, NoDup sl ->
  NoDup (map slot_of adds) -> (forall a, In a adds -> In (slot_of a) sl) ->
  Permutation (flat_map (fun s => match added_at adds (fst s) (snd s) with Some d => [d] | None => [] end) sl)
              (map dev_of adds).
Proof.
  intros sl adds Nsl. induction adds as [|[[p i] d] r IH]; intros ND Hin.
  - simpl. rewrite flat_map_nil; auto.
  - simpl in ND. inversion ND; subst.
    assert (Hs : In (p, i) sl) by (apply (Hin (p, i, d)); left; reflexivity).
    destruct (in_split _ _ Hs) as (l1 & l2 & E).
    rewrite E in *. rewrite flat_map_app. simpl.
    rewrite !Nat.eqb_refl. simpl.
    apply NoDup_remove in Nsl as [Nsl1 Nsl2].
    assert (X : forall l, ~ In (p, i) l ->
       flat_map (fun s => match (if (fst s =? p) && (snd s =? i) then Some d else added_at r (fst s) (snd s)) with Some d => [d] | None => [] end) l
       = flat_map (fun s => match added_at r (fst s) (snd s) with Some d => [d] | None => [] end) l).
    { intros l Hl. apply flat_map_ext'. intros [p' i'] Hx. simpl.
      destruct ((p' =? p) && (i' =? i)) eqn:B; [|reflexivity].
      apply andb_true_iff in B. rewrite !Nat.eqb_eq in B. destruct B; subst. contradiction. }
    rewrite (X l1), (X l2) by (intros Y; apply Nsl2; apply in_app_iff; auto).
    apply Permutation_sym, Permutation_cons_app, Permutation_sym.
    assert (Hr : forall a, In a r -> In (slot_of a) (l1 ++ (p, i) :: l2)) by (intros; apply Hin; right; auto).
    specialize (IH H2 Hr).
    rewrite flat_map_app in IH. simpl in IH.
    rewrite (added_at_not_in r p i) in IH by exact H1. exact IH.
Qed.

Lemma listing_perm : forall P S adds, admissible P S adds ->
  Permutation (listing P S adds) (map dev_of adds).
Proof.
  intros P S adds [ND F]. apply listing_gen; auto using NoDup_slots.
  intros [[p i] d] Ha. rewrite Forall_forall in F. apply F in Ha. unfold slot_of in *; simpl in *.
  apply in_slots. auto.
Qed.

Lemma admissible_bound : forall P S adds, admissible P S adds -> length adds <= P * S.
Proof.
  intros P S adds [ND F]. rewrite <- slots_length. rewrite <- (map_length slot_of adds).
  apply NoDup_incl_length; auto. intros [p i] H. apply in_map_iff in H.
  destruct H as ([[p' i'] d] & E & Hin). unfold slot_of in E; simpl in E. inversion E; subst.
  rewrite Forall_forall in F. apply F in Hin. apply in_slots. exact Hin.
Qed.

(** ** Flat index *)

Lemma con_get_ok : forall c n, wf c -> con_size c <= con_planes c * con_plane_size c ->
  0 < con_plane_size c -> n <= con_size c ->
  con_get c n = con_at (con_grid c) (n / con_plane_size c) (n mod con_plane_size c).
Proof.
  intros c n W Hs Hp Hn. unfold con_get, get_size.
  rewrite (proj2 (Nat.leb_le _ _) Hs). simpl.
  rewrite (proj2 (Nat.leb_le _ _) Hn). simpl.
  destruct (con_plane_size c); [lia|reflexivity].
Qed.

Lemma flat_slot : forall P S k, k < P * S -> k / S < P /\ k mod S < S.
Proof.
  intros P S k H. assert (S <> 0) by (intros ->; lia).
  split; [apply Nat.div_lt_upper_bound; lia | apply Nat.mod_upper_bound; auto].
Qed.

(** *** Closest *)

Lemma fold_flat : forall A B C (f : A -> B -> A) (g : C -> list B) (l : list C) a,
  fold_left (fun acc x => fold_left f (g x) acc) l a = fold_left f (flat_map g l) a.
Proof. induction l; simpl; intros; [reflexivity|]. rewrite fold_left_app. apply IHl. Qed.

Lemma fold_non_null : forall A leb (sq : dev -> A) (l : list (option dev)) acc,
  fold_left (closest_step leb sq) l acc =
  fold_left (closest_step leb sq) (map Some (flat_map non_null l)) acc.
Proof. induction l as [|[d|] l IH]; simpl; intros; auto. Qed.

Lemma fold_map : forall A B C (f : A -> C -> A) (g : B -> C) l a,
  fold_left f (map g l) a = fold_left (fun acc x => f acc (g x)) l a.
Proof. induction l; simpl; auto. Qed.

Lemma get_closest_list : forall A leb (sq : dev -> A) c, get_closest_by leb sq c =
  fst (fold_left (closest_step leb sq) (map Some (container c)) (None, None)).
Proof.
  intros. unfold get_closest_by, container. f_equal.
  generalize (@None dev, @None A). induction (con_grid c) as [|r g IH]; simpl; intros; [reflexivity|].
  rewrite map_app, fold_left_app. rewrite <- fold_non_null. apply IH.
Qed.

(** A comparison fit for looking for a smallest element. *)
Definition total_order {A : Type} (leb : A -> A -> bool) : Prop :=
  (forall a b, leb a b = false -> leb b a = true) /\ (forall a b c, leb a b = true -> leb b c = true -> leb a c = true).

Definition nearest {A : Type} (leb : A -> A -> bool) (sq : dev -> A) (l : list dev) (d : dev) : Prop :=
  exists before after, l = before ++ d :: after /\
    (forall x, In x before -> leb (sq d) (sq x) = true) /\
    (forall x, In x after -> leb (sq x) (sq d) = false).

Lemma closest_fold : forall A leb (sq : dev -> A) l, total_order leb ->
  match fold_left (closest_step leb sq) (map Some l) (None, None) with
  | (None, b) => l = [] /\ b = None
  | (Some d, Some b) => b = sq d /\ nearest leb sq l d
  | _ => False
  end.
Proof.
  intros A leb sq l [Tot Tr]. induction l as [|x l IH] using rev_ind; simpl; [auto|].
  rewrite map_app, fold_left_app. simpl.
  destruct (fold_left (closest_step leb sq) (map Some l) (None, None)) as [[d|] [b|]]; try contradiction.
  - destruct IH as [-> (bf & af & -> & H1 & H2)]. simpl.
    destruct (leb (sq x) (sq d)) eqn:E.
    + split; auto.
      exists (bf ++ d :: af), []. split; [reflexivity|]. split; [|intros ? []].
      intros y Hy. apply in_app_iff in Hy. destruct Hy as [Hy|[->|Hy]]; auto.
      * eapply Tr; eauto.
      * eapply Tr; [exact E|]. apply Tot. auto.
    + split; auto. exists bf, (af ++ [x]). split; [rewrite <- app_assoc; reflexivity|].
      split; auto. intros y Hy. apply in_app_iff in Hy. destruct Hy as [Hy|[->|[]]]; auto.
  - destruct IH as [_ IH]. discriminate.
  - destruct IH as [-> _]. simpl. split; auto. exists [], []. simpl. repeat split; intros ? [].
Qed.

Lemma Qle_bool_total : total_order Qle_bool.
Proof.
  split.
  - intros a b H. apply Qle_bool_iff, Qlt_le_weak, Qnot_le_lt. intros X. apply Qle_bool_iff in X. congruence.
  - intros a b c H1 H2. apply Qle_bool_iff in H1, H2. apply Qle_bool_iff. eapply Qle_trans; eauto.
Qed.

(** ** Row-major order *)

Lemma seq_from : forall n s, seq s n = map (fun i => s + i) (seq 0 n).
Proof.
  induction n; simpl; intros; [reflexivity|]. rewrite Nat.add_0_r. f_equal.
  rewrite (IHn (S s)), (IHn 1), map_map. apply map_ext. intros; lia.
Qed.

Lemma slots_flat : forall S P, 0 < S -> slots P S = map (fun k => (k / S, k mod S)) (seq 0 (P * S)).
Proof.
  intros S P HS. induction P.
  - reflexivity.
  - unfold slots in *. rewrite seq_S, flat_map_app, IHP. simpl flat_map. rewrite app_nil_r.
    replace (Datatypes.S P * S) with (P * S + S) by lia. rewrite seq_app, map_app. f_equal.
    rewrite (seq_from S (0 + P * S)), map_map. apply map_ext_in. intros i Hi. apply in_seq in Hi.
    simpl. f_equal.
    + rewrite Nat.div_add_l by lia. rewrite Nat.div_small by lia. lia.
    + rewrite Nat.add_comm, Nat.mod_add by lia. rewrite Nat.mod_small by lia. reflexivity.
Qed.

(** Occupied slots are exactly the first ones in row-major order. *)
Definition row_major (S : nat) (adds : list (nat * nat * nat)) : Prop :=
  forall p i d, added_at adds p i = Some d -> p * S + i < length adds.

Lemma flat_inj : forall S p i p' i', i < S -> i' < S -> p * S + i = p' * S + i' -> p = p' /\ i = i'.
Proof. intros. assert (p = p') by nia. subst. lia. Qed.

Lemma flat_back : forall S p i, i < S -> (p * S + i) / S = p /\ (p * S + i) mod S = i.
Proof.
  intros. split.
  - rewrite Nat.div_add_l by lia. rewrite Nat.div_small by lia. lia.
  - rewrite Nat.add_comm, Nat.mod_add by lia. apply Nat.mod_small. lia.
Qed.

Lemma row_major_first : forall P S adds, admissible P S adds -> row_major S adds ->
  forall k, k < length adds -> exists d, added_at adds (k / S) (k mod S) = Some d.
Proof.
  intros P S adds [ND F] RM k Hk.
  set (fl := map (fun a => fst (slot_of a) * S + snd (slot_of a)) adds).
  rewrite Forall_forall in F.
  assert (Nf : NoDup fl).
  { unfold fl. clear RM Hk k fl. induction adds as [|[[p i] d] r IH]; simpl in *; constructor.
    - intros X. apply in_map_iff in X. destruct X as ([[p' i'] d'] & E & Hin).
      inversion ND; subst. unfold slot_of in *; simpl in *.
      assert (A := F (p', i', d') (or_intror Hin)). assert (B := F (p, i, d) (or_introl eq_refl)).
      simpl in A, B.
      apply flat_inj in E; try lia. destruct E; subst.
      apply H1. apply in_map_iff. exists (p, i, d'). auto.
    - inversion ND; subst. apply IH; auto. }
  assert (Lf : length fl = length adds) by apply map_length.
  assert (Inc : incl fl (seq 0 (length adds))).
  { intros x Hx. unfold fl in Hx. apply in_map_iff in Hx. destruct Hx as ([[p i] d] & E & Hin).
    apply in_seq. subst. unfold slot_of; simpl.
    pose proof (RM p i d (added_at_In adds p i d ND Hin)). lia. }
  assert (Inc2 : incl (seq 0 (length adds)) fl).
  { apply NoDup_length_incl; auto. rewrite seq_length. lia. }
  assert (Hin : In k fl) by (apply Inc2, in_seq; lia).
  unfold fl in Hin. apply in_map_iff in Hin. destruct Hin as ([[p i] d] & E & Hin).
  pose proof (F _ Hin) as R. unfold slot_of in *; simpl in *. subst.
  destruct (flat_back S p i) as [-> ->]; [lia|]. exists d. apply added_at_In; auto.
Qed.

Lemma first_row_major : forall P S adds, 0 < S -> admissible P S adds ->
  (forall k, k < length adds -> exists d, added_at adds (k / S) (k mod S) = Some d) ->
  row_major S adds.
Proof.
  intros P S adds HS [ND F] H.
  set (sl := map (fun k => (k / S, k mod S)) (seq 0 (length adds))).
  assert (Ns : NoDup sl).
  { unfold sl. apply FinFun.Injective_map_NoDup; [|apply seq_NoDup].
    intros a b E. inversion E. rewrite (Nat.div_mod a S), (Nat.div_mod b S) by lia. congruence. }
  assert (Ls : length sl = length adds) by (unfold sl; rewrite map_length, seq_length; auto).
  assert (Inc : incl sl (map slot_of adds)).
  { intros x Hx. unfold sl in Hx. apply in_map_iff in Hx. destruct Hx as (k & <- & Hk).
    apply in_seq in Hk. destruct (H k ltac:(lia)) as [d Hd]. apply added_at_inv in Hd.
    apply in_map_iff. exists (k / S, k mod S, d). auto. }
  assert (Inc2 : incl (map slot_of adds) sl).
  { apply NoDup_length_incl; auto. rewrite map_length. lia. }
  intros p i d Hd. apply added_at_inv in Hd.
  assert (Hin : In (p, i) sl) by (apply Inc2, in_map_iff; exists (p, i, d); auto).
  unfold sl in Hin. apply in_map_iff in Hin. destruct Hin as (k & E & Hk). apply in_seq in Hk.
  inversion E; subst. rewrite Nat.mul_comm, <- Nat.div_mod by lia. lia.
Qed.

Lemma flat_map_singletons : forall A B (f : A -> list B) (g : A -> B) l,
  (forall x, In x l -> f x = [g x]) -> flat_map f l = map g l.
Proof.
  induction l; simpl; intros; [reflexivity|]. rewrite H by auto. simpl. f_equal. auto.
Qed.

Lemma listing_row_major : forall P S adds, 0 < S -> admissible P S adds -> row_major S adds ->
  forall k, k < length adds ->
  nth_error (listing P S adds) k = added_at adds (k / S) (k mod S).
Proof.
  intros P S adds HS Ad RM k Hk.
  pose proof (admissible_bound P S adds Ad) as B.
  unfold listing. rewrite slots_flat by auto.
  replace (P * S) with (length adds + (P * S - length adds)) by lia.
  rewrite seq_app, map_app, flat_map_app. rewrite !flat_map_map.
  set (f := fun s : nat * nat => match added_at adds (fst s) (snd s) with Some d => [d] | None => [] end).
  rewrite (flat_map_singletons _ _ (fun x => f (x / S, x mod S))
    (fun x => match added_at adds (x / S) (x mod S) with Some d => d | None => 0 end)).
  - rewrite nth_error_app1 by (rewrite map_length, seq_length; auto).
    erewrite map_nth_error by (apply nth_error_seq; auto). simpl.
    destruct (row_major_first P S adds Ad RM k Hk) as [d ->]. reflexivity.
  - intros x Hx. apply in_seq in Hx. unfold f; simpl.
    destruct (row_major_first P S adds Ad RM x ltac:(lia)) as [d ->]. reflexivity.
Qed.
