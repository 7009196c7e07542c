From Coq Require Import ZArith List Lia Bool Permutation Sorting.Sorted.
From Verif Require Import Base RxModel RxSpec.
Import ListNotations.
Open Scope Z_scope.

Lemma rx_run_app : forall M (m : mac_rx M) ops1 ops2 s,
  rx_run m s (ops1 ++ ops2) =
  match rx_run m s ops1 with Some (Ok s') => rx_run m s' ops2 | x => x end.
Proof.
  induction ops1 as [|o l IH]; intros; cbn [rx_run app]; [reflexivity|].
  destruct (rx_step m s o) as [[s'| | |]|]; auto.
Qed.

Lemma rx_run_snoc : forall M (m : mac_rx M) ops o s s',
  rx_run m s (ops ++ [o]) = Some (Ok s') <->
  exists s1, rx_run m s ops = Some (Ok s1) /\ rx_step m s1 o = Some (Ok s').
Proof.
  intros. rewrite rx_run_app. split.
  - destruct (rx_run m s ops) as [[s1| | |]|]; try discriminate. cbn [rx_run].
    destruct (rx_step m s1 o) as [[s2| | |]|] eqn:E; intros X; inversion X; subst. eauto.
  - intros (s1 & -> & E). cbn [rx_run]. rewrite E. reflexivity.
Qed.

(** Induction on schedules from the end. *)
Lemma rx_run_ind : forall M (m : mac_rx M) s0 (Inv : list rx_op -> rx_state M -> Prop),
  Inv [] s0 ->
  (forall ops o s s', rx_run m s0 ops = Some (Ok s) -> Inv ops s -> rx_step m s o = Some (Ok s') ->
     Inv (ops ++ [o]) s') ->
  forall ops s, rx_run m s0 ops = Some (Ok s) -> Inv ops s.
Proof.
  intros M m s0 Inv H0 Hs. induction ops as [|o ops IH] using rev_ind; intros s R.
  - inversion R; subst; auto.
  - apply rx_run_snoc in R. destruct R as (s1 & R & E). eapply Hs; eauto.
Qed.

Lemma receptions_app : forall a b, receptions (a ++ b) = receptions a ++ receptions b.
Proof. intros. unfold receptions. apply flat_map_app. Qed.

Lemma schedule_perm : forall r l, Permutation (schedule r l) (r :: l).
Proof.
  induction l as [|x l IH]; simpl; [auto|].
  destruct (rx_end x <=? rx_end r); [|auto].
  rewrite IH. apply perm_swap.
Qed.

Lemma schedule_in : forall r l x, In x (schedule r l) <-> x = r \/ In x l.
Proof.
  intros. split; intros H.
  - apply (Permutation_in _ (schedule_perm r l)) in H. simpl in H. intuition congruence.
  - apply (Permutation_in _ (Permutation_sym (schedule_perm r l))). simpl. intuition congruence.
Qed.

Definition by_end (a b : reception) : Prop := rx_end a <= rx_end b.

Lemma schedule_sorted : forall r l, StronglySorted by_end l -> StronglySorted by_end (schedule r l).
Proof.
  induction l as [|x l IH]; simpl; intros H.
  - repeat constructor.
  - inversion H; subst. destruct (Z.leb_spec (rx_end x) (rx_end r)).
    + constructor; auto. apply Forall_forall. intros y Hy. apply schedule_in in Hy.
      destruct Hy as [->|Hy]; [exact H0|]. rewrite Forall_forall in H3. apply H3; auto.
    + constructor; auto. constructor; [unfold by_end; lia|].
      apply Forall_forall. intros y Hy. rewrite Forall_forall in H3. specialize (H3 y Hy).
      unfold by_end in *. lia.
Qed.

(** A reception ending last goes to the end of the queue. *)
Lemma schedule_last : forall r l, Forall (fun x => rx_end x <= rx_end r) l -> schedule r l = l ++ [r].
Proof.
  induction l as [|x l IH]; simpl; intros H; [reflexivity|].
  inversion H; subst. rewrite (proj2 (Z.leb_le _ _)) by auto. rewrite IH; auto.
Qed.

(** The last of the queue stays last when something that ends earlier is added. *)
Lemma schedule_before : forall r l o, StronglySorted by_end (l ++ [o]) -> rx_end r < rx_end o ->
  exists l', schedule r (l ++ [o]) = l' ++ [o].
Proof.
  induction l as [|x l IH]; simpl; intros o H E.
  - rewrite (proj2 (Z.leb_gt _ _)) by auto. exists [r]. reflexivity.
  - inversion H; subst. destruct (rx_end x <=? rx_end r).
    + destruct (IH o H2 E) as (l' & ->). exists (x :: l'). reflexivity.
    + exists (r :: x :: l). reflexivity.
Qed.

(** Facts about every schedule, whatever the MAC. *)
Definition base_inv {M} (ops : list rx_op) (s : rx_state M) : Prop :=
  Permutation (receptions ops) (map fst (st_log s) ++ st_pending s) /\
  StronglySorted by_end (st_pending s) /\
  Forall (fun r => st_now s <= rx_end r) (st_pending s) /\
  Forall (fun r => rx_start r <= st_now s) (receptions ops) /\
  Forall (fun e => rx_end (fst e) <= st_now s) (st_log s).

Lemma base_inv_holds : forall M (m : mac_rx M) m0 ops s,
  rx_run m (rx_init m0) ops = Some (Ok s) -> sane ops -> base_inv ops s.
Proof.
  intros M m m0 ops s R. revert ops s R. apply (rx_run_ind M m (rx_init m0) (fun ops s => sane ops -> base_inv ops s)).
  - intros _. repeat split; cbn; constructor.
  - intros ops o s s' R IH E Sa.
    unfold sane in Sa. rewrite receptions_app, Forall_app in Sa. destruct Sa as [Sa So].
    specialize (IH Sa). destruct IH as (P & So' & Fn & Fs & Fl). unfold base_inv.
    rewrite receptions_app. destruct o as [t uid tx pow|]; cbn [rx_step] in E.
    + destruct ((st_now s <=? t) && forallb (fun r => t <=? rx_end r) (st_pending s)) eqn:G; [|discriminate].
      inversion E; subst. cbn [st_log st_pending st_now]. clear E.
      apply andb_true_iff in G. destruct G as [G1 G2]. apply Z.leb_le in G1.
      rewrite forallb_forall in G2.
      cbn [receptions flat_map app] in So |- *. inversion So; subst. cbn [rx_start rx_end] in H1.
      set (r := mkRx uid t (t + tx) pow) in *.
      split; [|split; [|split; [|split]]].
      * rewrite P. rewrite (schedule_perm r (st_pending s)).
        rewrite <- app_assoc. apply Permutation_app_head. apply Permutation_sym, Permutation_cons_append.
      * apply schedule_sorted; auto.
      * apply Forall_forall. intros x Hx. apply schedule_in in Hx. destruct Hx as [->|Hx]; [cbn; lia|].
        specialize (G2 x Hx). apply Z.leb_le in G2. auto.
      * apply Forall_app. split; [|constructor; [cbn; lia|constructor]].
        eapply Forall_impl; [|exact Fs]. cbn; intros; lia.
      * eapply Forall_impl; [|exact Fl]. cbn; intros; lia.
    + destruct (st_pending s) as [|r l] eqn:Ep; [discriminate|].
      destruct (mac_finish m (st_mac s) r) as [[m' up]| | |] eqn:Ef; cbn [rbind] in E; try discriminate.
      inversion E; subst. clear E. cbn [st_log st_pending st_now receptions flat_map].
      rewrite app_nil_r. inversion So'; subst. inversion Fn; subst.
      split; [|split; [|split; [|split]]]; auto.
      * rewrite P. rewrite map_app. cbn [map fst]. rewrite <- app_assoc. reflexivity.
      * eapply Forall_impl; [|exact Fs]. cbn; intros; lia.
      * apply Forall_app. split; [|constructor; [cbn; lia|constructor]].
        eapply Forall_impl; [|exact Fl]. cbn; intros; lia.
Qed.

(** Splitting off the last event. *)
Lemma separate_app : forall M (m : mac_rx M) ops o s s',
  rx_run m s ops = Some (Ok s') -> separate (st_pending s) (ops ++ [o]) ->
  separate (st_pending s) ops /\ separate (st_pending s') [o].
Proof.
  induction ops as [|x ops IH]; intros o s s' R F.
  - cbn [app] in F. inversion R; subst. split; [exact I|auto].
  - cbn [rx_run app] in *. destruct x as [t u z p|]; cbn [rx_step separate] in *.
    + destruct (_ && _); [|discriminate]. destruct F as [F1 F2].
      edestruct IH as [G1 G2]; [exact R|exact F2|]. repeat split; auto.
    + destruct (st_pending s) as [|r l]; [discriminate|].
      destruct (mac_finish m (st_mac s) r) as [[m' up]| | |]; cbn [rbind] in R; try discriminate.
      cbn [tl] in *. edestruct IH as [G1 G2]; [exact R|exact F|]; auto.
Qed.

Lemma separate_pending : forall M (m : mac_rx M) m0 ops s, rx_run m (rx_init m0) ops = Some (Ok s) ->
  separate [] ops -> NoDup (map rx_uid (st_pending s)).
Proof.
  intros M m m0 ops s R. revert ops s R.
  apply (rx_run_ind M m (rx_init m0) (fun ops s => separate [] ops -> NoDup (map rx_uid (st_pending s)))).
  - intros _. constructor.
  - intros ops o s s' R IH E Se. destruct (separate_app _ _ _ _ _ _ R Se) as [Se1 Se2]. specialize (IH Se1).
    destruct o as [t u x p|]; cbn [rx_step separate] in *.
    + destruct (_ && _); [|discriminate]. inversion E; subst. cbn [st_pending]. destruct Se2 as [Se2 _].
      apply (Permutation_NoDup (l := u :: map rx_uid (st_pending s))).
      * apply Permutation_sym. apply (Permutation_map rx_uid) with (l' := mkRx u t (t + x) p :: st_pending s).
        apply schedule_perm.
      * constructor; auto. intros I. apply in_map_iff in I. destruct I as (r & Er & Ir).
        rewrite Forall_forall in Se2. apply (Se2 r Ir Er).
    + destruct (st_pending s) as [|r l]; [discriminate|].
      destruct (mac_finish m (st_mac s) r) as [[m' up]| | |]; cbn [rbind] in E; try discriminate.
      inversion E; subst. cbn [st_pending map] in *. inversion IH; auto.
Qed.

Lemma distinct_app : forall a b, distinct (a ++ b) -> distinct a.
Proof.
  unfold distinct. intros a b. rewrite receptions_app, map_app. revert b.
  induction (map rx_uid (receptions a)) as [|x l IH]; intros b H; [constructor|].
  inversion H; subst. constructor; eauto. intros I. apply H2. apply in_or_app. auto.
Qed.

Lemma sane_app : forall a b, sane (a ++ b) -> sane a.
Proof. unfold sane. intros a b. rewrite receptions_app, Forall_app. tauto. Qed.

Lemma distinct_separate_gen : forall ops pend, NoDup (map rx_uid pend ++ map rx_uid (receptions ops)) ->
  separate pend ops.
Proof.
  induction ops as [|o ops IH]; intros pend D; [exact I|]. destruct o as [t u x p|]; cbn [separate].
  - cbn [receptions flat_map app map rx_uid] in D. split.
    + apply Forall_forall. intros r Ir Er. apply NoDup_remove_2 in D. apply D. apply in_or_app. left.
      rewrite <- Er. apply in_map; auto.
    + apply IH. refine (Permutation_NoDup _ D). fold (receptions ops).
      rewrite <- Permutation_middle.
      change (u :: map rx_uid pend ++ map rx_uid (receptions ops))
        with (map rx_uid (mkRx u t (t + x) p :: pend) ++ map rx_uid (receptions ops)).
      apply Permutation_app_tail. apply Permutation_map. apply Permutation_sym, schedule_perm.
  - apply IH. destruct pend; [exact D|]. cbn [tl map app] in *. inversion D; auto.
Qed.

Lemma distinct_separate : forall ops, distinct ops -> separate [] ops.
Proof. intros. apply distinct_separate_gen. exact H. Qed.
