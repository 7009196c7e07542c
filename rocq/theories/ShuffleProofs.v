(** Proofs on the shuffle. *)
From Coq Require Import ZArith List Lia Bool Arith Permutation.
From Coq Require Import Factorial.
From Verif Require Import Base CrdsaModel ShuffleModel ShuffleSpec.
Import ListNotations.
Open Scope nat_scope.

Section Lists.
Context {B : Type}.
Implicit Types l t : list B.

Lemma put_length : forall l i v, length (put l i v) = length l.
Proof. induction l as [|x l IH]; intros [|i] v; cbn; auto. Qed.
Lemma put_nth : forall l i v k, nth_error (put l i v) k = if (k =? i) && (i <? length l) then Some v else nth_error l k.
Proof.
  induction l as [|x l IH]; intros i v k.
  - cbn [put length]. replace (i <? 0) with false by (symmetry; apply Nat.ltb_ge; lia). rewrite andb_false_r. reflexivity.
  - destruct i as [|i], k as [|k]; cbn [put nth_error length]; try reflexivity. rewrite IH. reflexivity.
Qed.
Lemma swap_length : forall l i j, length (swap l i j) = length l.
Proof. intros l i j. unfold swap. destruct (nth_error l i), (nth_error l j); rewrite ?put_length; reflexivity. Qed.
Lemma swap_nth : forall l i j k, i < length l -> j < length l ->
  nth_error (swap l i j) k = nth_error l (if k =? i then j else if k =? j then i else k).
Proof.
  intros l i j k Hi Hj. unfold swap. destruct (nth_error l i) as [x|] eqn:Ei; [|apply nth_error_None in Ei; lia]. destruct (nth_error l j) as [y|] eqn:Ej; [|apply nth_error_None in Ej; lia].
  rewrite put_nth, put_length, put_nth. destruct (Nat.ltb_spec i (length l)); [|lia]. destruct (Nat.ltb_spec j (length l)); [|lia]. rewrite !andb_true_r.
  destruct (Nat.eqb_spec k i) as [Eki|]; destruct (Nat.eqb_spec k j) as [Ekj|]; subst; congruence.
Qed.
Lemma nth_ext_error : forall l t, length l = length t -> (forall k, k < length l -> nth_error l k = nth_error t k) -> l = t.
Proof.
  induction l as [|x l IH]; intros [|y t] L H; try discriminate L; [reflexivity|]. injection L as L. f_equal.
  - specialize (H 0). cbn in H. assert (Some x = Some y) by (apply H; lia). congruence.
  - apply IH; [exact L|]. intros k Hk. apply (H (S k)). cbn. lia.
Qed.
Lemma swap_swap : forall l i j, i < length l -> j < length l -> swap (swap l i j) i j = l.
Proof.
  intros l i j Hi Hj. apply nth_ext_error; [rewrite !swap_length; reflexivity|]. intros k _. rewrite swap_nth by (rewrite swap_length; assumption). rewrite swap_nth by assumption. f_equal.
  destruct (Nat.eqb_spec k i) as [E|N1]; [|destruct (Nat.eqb_spec k j) as [E|N2]].
  - destruct (Nat.eqb_spec j i) as [E'|]; [congruence|]. rewrite Nat.eqb_refl. congruence.
  - rewrite Nat.eqb_refl. congruence.
  - destruct (Nat.eqb_spec k i); [contradiction|]. destruct (Nat.eqb_spec k j); [contradiction|]. reflexivity.
Qed.
Lemma swap_perm : forall l i j, Permutation l (swap l i j).
Proof.
  intros l i j. destruct (Nat.ltb_spec i (length l)) as [Hi|Hi]; destruct (Nat.ltb_spec j (length l)) as [Hj|Hj].
  2, 3, 4: unfold swap; try (rewrite (proj2 (nth_error_None l i) Hi)); try (rewrite (proj2 (nth_error_None l j) Hj)); try (destruct (nth_error l i)); apply Permutation_refl.
  apply Permutation_nth_error. split; [symmetry; apply swap_length|]. exists (fun k => if k =? i then j else if k =? j then i else k). split.
  - intros a b. repeat match goal with |- context [?x =? ?y] => destruct (Nat.eqb_spec x y) end; subst; try congruence; auto.
  - intros k. apply swap_nth; assumption.
Qed.

Lemma swap_app : forall l m i j, i < length l -> j < length l -> swap (l ++ m) i j = swap l i j ++ m.
Proof.
  intros l m i j Hi Hj. apply nth_ext_error; [rewrite swap_length, !app_length, swap_length; reflexivity|]. intros k _. rewrite swap_nth by (rewrite app_length; lia).
  destruct (Nat.ltb_spec k (length l)) as [Hk|Hk].
  - rewrite (nth_error_app1 (swap l i j)) by (rewrite swap_length; exact Hk). rewrite swap_nth by assumption. apply nth_error_app1. destruct (k =? i); [exact Hj|]. destruct (k =? j); assumption.
  - rewrite (nth_error_app2 (swap l i j)) by (rewrite swap_length; exact Hk). rewrite swap_length. destruct (Nat.eqb_spec k i); [lia|]. destruct (Nat.eqb_spec k j); [lia|]. apply nth_error_app2. exact Hk.
Qed.

(** ** The shuffle reaches every arrangement in one way *)
Lemma from_snoc : forall ds i l j, shuffle_from i l (ds ++ [j]) = swap (shuffle_from i l ds) (i + length ds) j.
Proof.
  induction ds as [|d ds IH]; intros i l j; cbn [app shuffle_from length]; [rewrite Nat.add_0_r; reflexivity|]. rewrite IH, Nat.add_succ_r. reflexivity.
Qed.
Lemma from_perm : forall ds i l, Permutation l (shuffle_from i l ds).
Proof. induction ds as [|d ds IH]; intros i l; cbn [shuffle_from]; [apply Permutation_refl|]. eapply Permutation_trans; [apply (swap_perm l i d)|apply IH]. Qed.
Lemma from_app : forall ds i l m, i + length ds <= length l -> (forall k j, nth_error ds k = Some j -> j <= i + k) -> shuffle_from i (l ++ m) ds = shuffle_from i l ds ++ m.
Proof.
  induction ds as [|d ds IH]; intros i l m L D; cbn [shuffle_from]; [reflexivity|]. cbn [length] in L. pose proof (D 0 d eq_refl) as D0.
  rewrite swap_app by lia. apply IH; [rewrite swap_length; lia|]. intros k j E. specialize (D (S k) j E). lia.
Qed.

Lemma can_draw_snoc : forall n ds j, can_draw (S (S n)) (ds ++ [j]) <-> can_draw (S n) ds /\ j <= S n.
Proof.
  intros n ds j. unfold can_draw. rewrite app_length. cbn [length]. split.
  - intros [L D]. assert (Ld : length ds = n) by lia. split; [split; [lia|]|].
    + intros k x E. apply D. rewrite nth_error_app1; [exact E|]. apply nth_error_Some. congruence.
    + specialize (D n j). rewrite nth_error_app2, Ld, Nat.sub_diag in D by lia. apply D. reflexivity.
  - intros [[L D] J]. split; [lia|]. intros k x E. destruct (Nat.ltb_spec k (length ds)) as [Hk|Hk].
    + rewrite nth_error_app1 in E by exact Hk. exact (D k x E).
    + rewrite nth_error_app2 in E by exact Hk. destruct (k - length ds) as [|y] eqn:Ek; [|destruct y; discriminate E]. injection E as <-. lia.
Qed.

Lemma nth_last : forall l x, nth_error (l ++ [x]) (length l) = Some x.
Proof. intros l x. rewrite nth_error_app2 by lia. rewrite Nat.sub_diag. reflexivity. Qed.

Lemma nodup_left : forall l m, NoDup (l ++ m) -> NoDup l.
Proof. induction l as [|x l IH]; intros m N; [constructor|]. inversion N; subst. constructor; [intros H; apply H1, in_or_app; auto|eauto]. Qed.

Lemma shuffle_unique : forall n l t, length l = n -> NoDup l -> Permutation l t -> exists! ds, can_draw n ds /\ shuffle l ds = t.
Proof.
  induction n as [|n IH]; intros l t L N P.
  - destruct l; [|discriminate L]. apply Permutation_nil in P. subst t. exists []. split; [split; [split; [reflexivity|intros [|k] j E; discriminate E]|reflexivity]|].
    intros ds [[Ld _] _]. destruct ds; [reflexivity|discriminate Ld].
  - destruct (exists_last (l := l)) as (l0 & x & ->); [destruct l; discriminate|]. rewrite app_length, Nat.add_1_r in L. injection L as L.
    destruct n as [|n].
    { destruct l0; [|discriminate L]. cbn [app] in *. apply Permutation_length_1_inv in P. subst t. exists []. split; [split; [split; [reflexivity|intros [|k] j E; discriminate E]|reflexivity]|].
      intros ds [[Ld _] _]. destruct ds; [reflexivity|discriminate Ld]. }
    pose proof (Permutation_length P) as Lt. rewrite app_length in Lt. cbn [length] in Lt.
    assert (Ix : In x t) by (apply (Permutation_in _ P), in_or_app; right; left; reflexivity). apply In_nth_error in Ix. destruct Ix as [j Ej].
    assert (Hj : j < length t) by (apply nth_error_Some; congruence).
    assert (Nt : NoDup t) by exact (Permutation_NoDup P N).
    assert (Pre : forall t0, Permutation l0 t0 -> forall i, i <= length l0 -> swap (t0 ++ [x]) (length l0) i = t -> i = j /\ t0 ++ [x] = swap t (length l0) j).
    { intros t0 P0 i Hi E. pose proof (Permutation_length P0) as L0. assert (Lx : length (t0 ++ [x]) = S (length l0)) by (rewrite app_length; cbn; lia).
      assert (Ei : i = j).
      { apply (proj1 (NoDup_nth_error t) Nt); [lia|]. rewrite Ej, <- E, swap_nth by lia. rewrite Nat.eqb_refl. destruct (Nat.eqb_spec i (length l0)) as [->|]; rewrite L0; apply nth_last. }
      split; [exact Ei|]. subst i. rewrite <- E. symmetry. apply swap_swap; lia. }
    assert (Sw : exists t0, swap t (length l0) j = t0 ++ [x] /\ Permutation l0 t0).
    { destruct (exists_last (l := swap t (length l0) j)) as (t0 & z & E); [intros X; pose proof (swap_length t (length l0) j) as Y; rewrite X in Y; cbn in Y; lia|].
      assert (L0 : length t0 = length l0) by (pose proof (f_equal (@length B) E) as Y; rewrite swap_length, app_length in Y; cbn [length] in Y; lia).
      assert (z = x).
      { pose proof (f_equal (fun q => nth_error q (length l0)) E) as Y. cbv beta in Y. rewrite swap_nth, Nat.eqb_refl, Ej in Y by lia. rewrite <- L0, nth_last in Y. congruence. }
      subst z. exists t0. split; [exact E|]. apply (Permutation_app_inv_r [x]). rewrite <- E. eapply Permutation_trans; [exact P|apply swap_perm]. }
    destruct Sw as (t0 & Es & P0). destruct (IH l0 t0 L (nodup_left _ _ N) P0) as (ds & [Dd Sd] & U).
    assert (App : forall es, can_draw (S n) es -> shuffle (l0 ++ [x]) es = shuffle l0 es ++ [x]).
    { intros es [Le De]. apply from_app; [lia|exact De]. }
    exists (ds ++ [j]). split.
    + split; [apply can_draw_snoc; split; [exact Dd|lia]|]. unfold shuffle in *. rewrite from_snoc, (App ds Dd), Sd. replace (1 + length ds) with (length l0) by (destruct Dd; lia).
      rewrite <- Es. apply swap_swap; lia.
    + intros es [De Se]. destruct (exists_last (l := es)) as (es0 & i & ->); [destruct De as [Le _]; destruct es; discriminate|]. apply can_draw_snoc in De. destruct De as [De Hi].
      unfold shuffle in *. rewrite from_snoc, (App es0 De) in Se. replace (1 + length es0) with (length l0) in Se by (destruct De; lia).
      destruct (Pre _ (from_perm es0 1 l0) i ltac:(lia) Se) as [-> E]. rewrite Es in E. apply app_inj_tail in E. rewrite (U es0 (conj De (proj1 E))). reflexivity.
Qed.
End Lists.

(** ** Counting *)
Lemma flat_cons_in : forall B (D : list B) (R : B -> list (list B)) x, In x (flat_map (fun d => map (cons d) (R d)) D) <-> exists d r, x = d :: r /\ In d D /\ In r (R d).
Proof.
  intros B D R x. rewrite in_flat_map. split.
  - intros (d & Hd & H). apply in_map_iff in H. destruct H as (r & <- & Hr). eauto.
  - intros (d & r & -> & Hd & Hr). exists d. split; [exact Hd|]. apply in_map. exact Hr.
Qed.
Lemma nodup_app : forall B (l m : list B), NoDup l -> NoDup m -> (forall x, In x l -> ~ In x m) -> NoDup (l ++ m).
Proof.
  intros B l m Nl Nm D. induction Nl as [|x l Nx Nl IH]; [exact Nm|]. cbn [app]. constructor.
  - intros H. apply in_app_or in H. destruct H as [H|H]; [exact (Nx H)|]. exact (D x (or_introl eq_refl) H).
  - apply IH. intros y Hy. apply D. right. exact Hy.
Qed.
Lemma flat_cons_nodup : forall B (D : list B) (R : B -> list (list B)), NoDup D -> (forall d, NoDup (R d)) -> NoDup (flat_map (fun d => map (cons d) (R d)) D).
Proof.
  intros B D R N NR. induction N as [|d D Nd N IH]; [constructor|]. cbn [flat_map]. apply nodup_app; [|exact IH|].
  - apply FinFun.Injective_map_NoDup; [intros a b H; congruence|apply NR].
  - intros x H1 H2. apply in_map_iff in H1. destruct H1 as (r & <- & _). apply flat_cons_in in H2. destruct H2 as (d' & r' & E & Hd & _). injection E as <- _. exact (Nd Hd).
Qed.
Lemma flat_cons_length : forall B (D : list B) (R : list (list B)), length (flat_map (fun d => map (cons d) R) D) = length D * length R.
Proof. intros B D R. induction D as [|d D IH]; [reflexivity|]. cbn [flat_map length]. rewrite app_length, map_length, IH. reflexivity. Qed.

Lemma draws_in : forall k i ds, In ds (draws_from i k) <-> length ds = k /\ forall m j, nth_error ds m = Some j -> j <= i + m.
Proof.
  induction k as [|k IH]; intros i ds.
  - cbn. split; [intros [<-|[]]; split; [reflexivity|intros [|m] j E; discriminate E]|]. intros [L _]. left. destruct ds; [reflexivity|discriminate L].
  - cbn [draws_from]. rewrite (flat_cons_in _ _ (fun _ => draws_from (S i) k)). split.
    + intros (d & r & -> & Hd & Hr). apply in_seq in Hd. apply IH in Hr. destruct Hr as [L H]. split; [cbn; congruence|]. intros [|m] j E; cbn in E; [injection E as <-; lia|]. specialize (H m j E). lia.
    + intros [L H]. destruct ds as [|d r]; [discriminate L|]. exists d, r. split; [reflexivity|]. pose proof (H 0 d eq_refl) as H0. split; [apply in_seq; lia|]. apply IH. split; [cbn in L; congruence|].
      intros m j E. specialize (H (S m) j E). lia.
Qed.
Lemma draws_nodup : forall k i, NoDup (draws_from i k).
Proof.
  induction k as [|k IH]; intros i; cbn [draws_from]; [constructor; [intros []|constructor]|]. apply (flat_cons_nodup _ _ (fun _ => draws_from (S i) k)); [apply seq_NoDup|intros _; apply IH].
Qed.
Lemma draws_length : forall k i, length (draws_from i k) * fact i = fact (i + k).
Proof.
  induction k as [|k IH]; intros i; cbn [draws_from]; [cbn [length]; rewrite Nat.add_0_r; lia|]. rewrite flat_cons_length, seq_length. rewrite Nat.add_succ_r. change (fact (S (i + k))) with (fact (S i + k)).
  rewrite <- IH. cbn [fact]. lia.
Qed.

Lemma all_draws_in : forall n ds, In ds (all_draws n) <-> can_draw n ds.
Proof. intros n ds. unfold all_draws, can_draw. rewrite draws_in. reflexivity. Qed.
Lemma all_draws_nodup : forall n, NoDup (all_draws n).
Proof. intros n. apply draws_nodup. Qed.
Lemma all_draws_length : forall n, length (all_draws n) = fact n.
Proof.
  intros n. pose proof (draws_length (n - 1) 1) as H. cbn [fact] in H. rewrite Nat.mul_1_r in H. unfold all_draws. rewrite Nat.mul_1_r in H || idtac. rewrite H. destruct n; [reflexivity|]. cbn [Nat.sub Nat.add]. rewrite Nat.sub_0_r. reflexivity.
Qed.
Lemma all_rounds_in : forall m n dss, In dss (all_rounds n m) <-> length dss = m /\ Forall (can_draw n) dss.
Proof.
  induction m as [|m IH]; intros n dss.
  - cbn. split; [intros [<-|[]]; split; [reflexivity|constructor]|]. intros [L _]. left. destruct dss; [reflexivity|discriminate L].
  - cbn [all_rounds]. rewrite (flat_cons_in _ _ (fun _ => all_rounds n m)). split.
    + intros (d & r & -> & Hd & Hr). apply IH in Hr. apply all_draws_in in Hd. destruct Hr as [L F]. split; [cbn; congruence|]. constructor; assumption.
    + intros [L F]. destruct dss as [|d r]; [discriminate L|]. inversion F; subst. exists d, r. rewrite all_draws_in, IH. cbn in L. injection L as L. auto.
Qed.
Lemma all_rounds_nodup : forall m n, NoDup (all_rounds n m).
Proof.
  induction m as [|m IH]; intros n; cbn [all_rounds]; [constructor; [intros []|constructor]|]. apply (flat_cons_nodup _ _ (fun _ => all_rounds n m)); [apply all_draws_nodup|intros _; apply IH].
Qed.
Lemma all_rounds_length : forall m n, length (all_rounds n m) = fact n ^ m.
Proof. induction m as [|m IH]; intros n; [reflexivity|]. cbn [all_rounds Nat.pow]. rewrite flat_cons_length, all_draws_length, IH. reflexivity. Qed.

Lemma map_nodup : forall B C (f : B -> C) l, NoDup l -> (forall x y, In x l -> In y l -> f x = f y -> x = y) -> NoDup (map f l).
Proof.
  intros B C f l N I. induction N as [|x l Nx N IH]; [constructor|]. cbn [map]. constructor.
  - intros H. apply in_map_iff in H. destruct H as (y & E & Hy). apply Nx. rewrite (I x y); [exact Hy|left; reflexivity|right; exact Hy|congruence].
  - apply IH. intros a b Ha Hb. apply I; right; assumption.
Qed.

Section Arrangements.
Context {B : Type}.
Variable eq_dec : forall x y : B, {x = y} + {x <> y}.
Implicit Types l t sel : list B.

Lemma arranged_in : forall l t, NoDup l -> In t (map (shuffle l) (all_draws (length l))) <-> Permutation l t.
Proof.
  intros l t N. rewrite in_map_iff. split.
  - intros (ds & <- & _). apply from_perm.
  - intros P. destruct (shuffle_unique _ l t eq_refl N P) as (ds & [D E] & _). exists ds. split; [exact E|]. apply all_draws_in. exact D.
Qed.
Lemma shuffle_inj : forall l ds es, NoDup l -> In ds (all_draws (length l)) -> In es (all_draws (length l)) -> shuffle l ds = shuffle l es -> ds = es.
Proof.
  intros l ds es N D E H. apply all_draws_in in D. apply all_draws_in in E. destruct (shuffle_unique _ l (shuffle l es) eq_refl N (from_perm es 1 l)) as (u & _ & U).
  rewrite <- (U ds (conj D H)). apply U. auto.
Qed.
Lemma rest_of : forall sel l, NoDup sel -> incl sel l -> exists rest, Permutation l (sel ++ rest).
Proof.
  induction sel as [|x sel IH]; intros l N I; [exists l; apply Permutation_refl|]. inversion N as [|? ? Nx N']; subst.
  assert (Hx : In x l) by (apply I; left; reflexivity). apply in_split in Hx. destruct Hx as (l1 & l2 & ->).
  destruct (IH (l1 ++ l2) N') as [rest P].
  { intros y Hy. assert (H : In y (l1 ++ x :: l2)) by (apply I; right; exact Hy). apply in_app_or in H. apply in_or_app. destruct H as [H|[->|H]]; auto. contradiction. }
  exists rest. cbn [app]. eapply Permutation_trans; [apply Permutation_sym, Permutation_middle|]. constructor. exact P.
Qed.
Lemma firstn_full : forall sel t, firstn (length sel) (sel ++ t) = sel.
Proof. induction sel as [|x sel IH]; intros t; [reflexivity|]. cbn. rewrite IH. reflexivity. Qed.

(** As many shuffles begin with a given choice as there are arrangements of the rest. *)
Lemma count_first : forall l sel, NoDup l -> NoDup sel -> incl sel l ->
  length (filter (fun ds => if list_eq_dec eq_dec (firstn (length sel) (shuffle l ds)) sel then true else false) (all_draws (length l))) = fact (length l - length sel).
Proof.
  intros l sel N Ns I. destruct (rest_of sel l Ns I) as [rest P]. pose proof (Permutation_length P) as Lr. rewrite app_length in Lr.
  assert (Nr : NoDup (sel ++ rest)) by exact (Permutation_NoDup P N). assert (Nr' : NoDup rest) by (clear - Nr; induction sel as [|x sel IH]; [exact Nr|inversion Nr; auto]).
  replace (length l - length sel) with (length rest) by lia. set (f := fun ds => if list_eq_dec eq_dec (firstn (length sel) (shuffle l ds)) sel then true else false).
  rewrite <- (map_length (shuffle l)). rewrite <- (all_draws_length (length rest)), <- (map_length (fun ds => sel ++ shuffle rest ds)). apply Permutation_length. apply NoDup_Permutation.
  - apply map_nodup; [apply NoDup_filter, all_draws_nodup|]. intros x y Hx Hy. apply filter_In in Hx. apply filter_In in Hy. apply shuffle_inj; tauto.
  - apply map_nodup; [apply all_draws_nodup|]. intros x y Hx Hy E. apply app_inv_head in E. exact (shuffle_inj rest x y Nr' Hx Hy E).
  - intros t. split.
    + intros H. apply in_map_iff in H. destruct H as (ds & <- & H). apply filter_In in H. destruct H as [H F]. unfold f in F. destruct (list_eq_dec eq_dec (firstn (length sel) (shuffle l ds)) sel) as [E|]; [|discriminate F].
      pose proof (from_perm ds 1 l) as Q. fold (shuffle l ds) in Q. 
      assert (Sp : shuffle l ds = sel ++ skipn (length sel) (shuffle l ds)) by (rewrite <- E at 1; symmetry; apply firstn_skipn). rewrite Sp.
      assert (R : Permutation rest (skipn (length sel) (shuffle l ds))).
      { apply (Permutation_app_inv_l sel). rewrite <- Sp. eapply Permutation_trans; [apply Permutation_sym, P|exact Q]. }
      apply (arranged_in _ _ Nr') in R. apply in_map_iff in R. destruct R as (es & <- & He). apply in_map_iff. eauto.
    + intros H. apply in_map_iff in H. destruct H as (es & <- & He). assert (Q : Permutation l (sel ++ shuffle rest es)) by (eapply Permutation_trans; [exact P|apply Permutation_app_head, from_perm]).
      apply (arranged_in _ _ N) in Q. apply in_map_iff in Q. destruct Q as (ds & E & Hd). apply in_map_iff. exists ds. split; [exact E|]. apply filter_In. split; [exact Hd|]. unfold f. rewrite E, firstn_full.
      destruct (list_eq_dec eq_dec sel sel); congruence.
Qed.
End Arrangements.

Lemma filter_map_cons : forall B (P : list B -> bool) d (R : list (list B)), length (filter P (map (cons d) R)) = length (filter (fun r => P (d :: r)) R).
Proof. intros B P d R. induction R as [|r R IH]; [reflexivity|]. cbn [map filter]. destruct (P (d :: r)); cbn [length]; rewrite IH; reflexivity. Qed.
Lemma filter_none : forall B (P : B -> bool) l, (forall x, In x l -> P x = false) -> length (filter P l) = 0.
Proof. intros B P l H. induction l as [|x l IH]; [reflexivity|]. cbn [filter]. rewrite (H x (or_introl eq_refl)). apply IH. intros y Hy. apply H. right. exact Hy. Qed.
Lemma count_product : forall B (P : list B -> bool) (g : B -> bool) c D (R : list (list B)),
  (forall d, In d D -> length (filter (fun r => P (d :: r)) R) = if g d then c else 0) ->
  length (filter P (flat_map (fun d => map (cons d) R) D)) = length (filter g D) * c.
Proof.
  intros B P g c D R H. induction D as [|d D IH]; [reflexivity|]. cbn [flat_map filter]. rewrite filter_app, app_length, filter_map_cons, (H d (or_introl eq_refl)), IH by (intros e He; apply H; right; exact He).
  destruct (g d); cbn [length]; lia.
Qed.

Lemma ways_from : forall reps n ids sels, NoDup ids -> length ids = n -> Forall2 (fun r sel => length sel = r /\ NoDup sel /\ incl sel ids) reps sels ->
  length (filter (fun dss => picks_eqb (select_all ids reps dss) sels) (all_rounds n (length reps))) = others n reps.
Proof.
  induction reps as [|r reps IH]; intros n ids sels N L F.
  - inversion F; subst. reflexivity.
  - inversion F as [|? sel ? sels' (Ls & Ns & Is) F']; subst. cbn [length all_rounds others fold_right].
    change (fold_right (fun r p => fact (length ids - r) * p) 1 reps) with (others (length ids) reps).
    rewrite (count_product _ _ (fun ds => if list_eq_dec Z.eq_dec (firstn (length sel) (shuffle ids ds)) sel then true else false) (others (length ids) reps)).
    + rewrite (count_first Z.eq_dec ids sel N Ns Is). reflexivity.
    + intros ds Hd. pose proof (from_perm ds 1 ids) as P. fold (shuffle ids ds) in P. pose proof (Permutation_length P) as Lp.
      assert (Lq : length sel <= length ids) by (apply NoDup_incl_length; assumption).
      cbn [select_all]. unfold selected_slots. destruct (Nat.ltb_spec (length (shuffle ids ds)) (length sel)) as [X|_]; [lia|].
      destruct (list_eq_dec Z.eq_dec (firstn (length sel) (shuffle ids ds)) sel) as [E|E].
      * rewrite <- (IH (length ids) (shuffle ids ds) sels' (Permutation_NoDup P N) (eq_sym Lp)).
        2: { clear - F' P. induction F' as [|r s rs ss (A & B & C) F IH]; constructor; [|exact IH]. repeat split; try assumption. intros x Hx. apply (Permutation_in _ P), C, Hx. }
        f_equal. apply filter_ext. intros dss. cbn [rbind]. rewrite E. destruct (select_all (shuffle ids ds) reps dss) as [y| | |]; cbn [rbind picks_eqb]; try reflexivity.
        destruct (list_eq_dec (list_eq_dec Z.eq_dec) (sel :: y) (sel :: sels')), (list_eq_dec (list_eq_dec Z.eq_dec) y sels'); congruence.
      * apply filter_none. intros dss _. cbn [rbind]. destruct (select_all (shuffle ids ds) reps dss) as [y| | |]; cbn [rbind picks_eqb]; try reflexivity.
        destruct (list_eq_dec (list_eq_dec Z.eq_dec) (firstn (length sel) (shuffle ids ds) :: y) (sel :: sels')); congruence.
Qed.

(** ** How often a slot is used *)
Lemma count_or : forall B (f g h : B -> bool) l, (forall x, In x l -> h x = f x || g x) -> (forall x, In x l -> f x = true -> g x = false) ->
  length (filter h l) = length (filter f l) + length (filter g l).
Proof.
  intros B f g h l H D. induction l as [|x l IH]; [reflexivity|]. cbn [filter].
  rewrite (H x (or_introl eq_refl)). specialize (D x (or_introl eq_refl)) as Dx. specialize (IH (fun y Hy => H y (or_intror Hy)) (fun y Hy => D y (or_intror Hy))).
  destruct (f x), (g x); cbn [orb length]; try lia.
Qed.

Definition holds_at (p : nat) (s : Z) (t : list Z) : bool := match nth_error t p with Some x => Z.eqb s x | None => false end.
Lemma holds_at_true : forall p s t, holds_at p s t = true <-> nth_error t p = Some s.
Proof. intros p s t. unfold holds_at. destruct (nth_error t p) as [x|]; [rewrite Z.eqb_eq; split; congruence|split; discriminate]. Qed.

Lemma count_at : forall l s p, NoDup l -> In s l -> p < length l ->
  length (filter (fun ds => holds_at p s (shuffle l ds)) (all_draws (length l))) = fact (length l - 1).
Proof.
  intros l s p N Hs Hp.
  assert (Ip : incl [s] l) by (intros x [<-|[]]; exact Hs). assert (N1 : NoDup [s]) by (constructor; [intros []|constructor]).
  pose proof (count_first Z.eq_dec l [s] N N1 Ip) as C. cbn [length] in C. rewrite <- C. clear C.
  set (g := fun ds : list nat => if list_eq_dec Z.eq_dec (firstn 1 (shuffle l ds)) [s] then true else false).
  assert (Lp : forall ds, length (shuffle l ds) = length l) by (intros ds; symmetry; apply Permutation_length, from_perm).
  assert (G : forall ds, g ds = true <-> nth_error (shuffle l ds) 0 = Some s).
  { intros ds. unfold g. destruct (shuffle l ds) as [|x t] eqn:E; [pose proof (Lp ds) as X; rewrite E in X; cbn in X; lia|]. cbn [firstn nth_error].
    destruct (list_eq_dec Z.eq_dec [x] [s]) as [Y|Y]; split; try congruence. }
  rewrite <- (map_length (fun ds => swap (shuffle l ds) 0 p)), <- (map_length (shuffle l) (filter g _)). apply Permutation_length, NoDup_Permutation.
  - apply map_nodup; [apply NoDup_filter, all_draws_nodup|]. intros x y Hx Hy E. apply filter_In in Hx. apply filter_In in Hy. apply (shuffle_inj l); try tauto.
    rewrite <- (swap_swap (shuffle l x) 0 p), <- (swap_swap (shuffle l y) 0 p), E by (rewrite Lp; lia). reflexivity.
  - apply map_nodup; [apply NoDup_filter, all_draws_nodup|]. intros x y Hx Hy. apply filter_In in Hx. apply filter_In in Hy. apply shuffle_inj; tauto.
  - intros t. rewrite !in_map_iff. split; intros (ds & <- & H); apply filter_In in H; destruct H as [Hd H].
    + apply holds_at_true in H. assert (Q : Permutation l (swap (shuffle l ds) 0 p)) by (eapply Permutation_trans; [apply from_perm|apply swap_perm]).
      apply (arranged_in _ _ N) in Q. apply in_map_iff in Q. destruct Q as (es & E & He). exists es. split; [exact E|]. apply filter_In. split; [exact He|]. apply G. rewrite E, swap_nth by (rewrite Lp; lia). exact H.
    + apply G in H. assert (Q : Permutation l (swap (shuffle l ds) 0 p)) by (eapply Permutation_trans; [apply from_perm|apply swap_perm]).
      apply (arranged_in _ _ N) in Q. apply in_map_iff in Q. destruct Q as (es & E & He). exists es. split; [rewrite E; apply swap_swap; rewrite Lp; lia|]. apply filter_In. split; [exact He|].
      apply holds_at_true. rewrite E, swap_nth by (rewrite Lp; lia). destruct (Nat.eqb_spec p 0) as [->|]; [exact H|]. rewrite Nat.eqb_refl. exact H.
Qed.

Lemma firstn_snoc : forall (t : list Z) r x, nth_error t r = Some x -> firstn (S r) t = firstn r t ++ [x].
Proof. induction t as [|y t IH]; intros [|r] x E; try discriminate E; cbn [nth_error] in E; [injection E as ->; reflexivity|]. cbn [firstn app]. rewrite <- (IH r x E). reflexivity. Qed.
Lemma count_used : forall r l s, NoDup l -> In s l -> r <= length l ->
  length (filter (fun ds => existsb (Z.eqb s) (firstn r (shuffle l ds))) (all_draws (length l))) = r * fact (length l - 1).
Proof.
  induction r as [|r IH]; intros l s N Hs L; [apply filter_none; reflexivity|]. rewrite Nat.mul_succ_l, <- (IH l s N Hs) by lia. rewrite <- (count_at l s r N Hs L).
  assert (Lp : forall ds, length (shuffle l ds) = length l) by (intros ds; symmetry; apply Permutation_length, from_perm).
  assert (Nx : forall ds, exists x, nth_error (shuffle l ds) r = Some x) by (intros ds; destruct (nth_error (shuffle l ds) r) as [x|] eqn:E; [eauto|apply nth_error_None in E; rewrite Lp in E; lia]).
  apply count_or.
  - intros ds _. destruct (Nx ds) as [x E]. rewrite (firstn_snoc _ _ _ E), existsb_app. cbn [existsb]. rewrite orb_false_r. unfold holds_at. rewrite E. reflexivity.
  - intros ds _ H. destruct (holds_at r s (shuffle l ds)) eqn:E; [|reflexivity]. exfalso. apply holds_at_true in E. apply existsb_exists in H. destruct H as (y & Hy & Ey). apply Z.eqb_eq in Ey. subst y.
    apply In_nth_error in Hy. destruct Hy as [k Ek]. assert (Hk : k < length (firstn r (shuffle l ds))) by (apply nth_error_Some; congruence). rewrite firstn_length, Lp in Hk.
    assert (Ek' : nth_error (shuffle l ds) k = Some s).
    { rewrite <- (firstn_skipn r (shuffle l ds)), nth_error_app1; [exact Ek|]. rewrite firstn_length, Lp. exact Hk. }
    assert (k = r); [|lia]. apply (proj1 (NoDup_nth_error (shuffle l ds)) (Permutation_NoDup (from_perm ds 1 l) N)); [rewrite Lp; lia|congruence].
Qed.
