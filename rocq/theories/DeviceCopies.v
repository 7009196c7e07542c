(** The ground station with a MAC that transmits several copies of a packet and reports the end of each. *)
From Coq Require Import ZArith List Lia Bool Arith.
From Verif Require Import Base SatAddrModel DeviceModel DeviceSpec DeviceProofs.
Import ListNotations.
Open Scope Z_scope.

(** * Counting *)
Definition times {A} (f : A -> bool) (l : list A) : nat := length (filter f l).
Definition airs (u : Z) (tr : list gevent) : nat :=
  times (fun e => match e with EAir v _ => v =? u | _ => false end) tr.
Definition dones (u : Z) (tr : list gevent) : nat :=
  times (fun e => match e with EDone v => v =? u | _ => false end) tr.
Definition occurs (u : Z) (l : list Z) : nat := times (fun v => v =? u) l.
(** Jobs of a packet that wait for their turn, and those on the air. *)
Definition held (u : Z) (l : list mac_job) : nat := times (fun j => (job_uid j =? u) && negb (job_on_air j)) l.
Definition flying (u : Z) (l : list mac_job) : nat := times (fun j => (job_uid j =? u) && job_on_air j) l.

Lemma times_nil : forall A (f : A -> bool), times f [] = 0%nat.
Proof. reflexivity. Qed.
Lemma times_app : forall A (f : A -> bool) a b, times f (a ++ b) = (times f a + times f b)%nat.
Proof. intros. unfold times. rewrite filter_app, app_length. reflexivity. Qed.
Lemma times_cons : forall A (f : A -> bool) x l, times f (x :: l) = ((if f x then 1 else 0) + times f l)%nat.
Proof. intros. unfold times. cbn [filter]. destruct (f x); reflexivity. Qed.
Lemma times_repeat : forall A (f : A -> bool) x n, times f (repeat x n) = if f x then n else 0%nat.
Proof.
  intros. unfold times. induction n as [|n IH]; cbn [repeat filter]; [destruct (f x); reflexivity|].
  destruct (f x); cbn [length]; rewrite IH; reflexivity.
Qed.
Lemma times_nth : forall A (f : A -> bool) l k x, nth_error l k = Some x ->
  times f l = ((if f x then 1 else 0) + times f (remove_nth k l))%nat.
Proof.
  induction l as [|y l IH]; intros [|k] x H; cbn in H; try discriminate; cbn [remove_nth]; rewrite times_cons.
  - injection H as ->. reflexivity.
  - rewrite (IH _ _ H), times_cons. lia.
Qed.
Lemma times_set : forall A (f : A -> bool) l k x y, nth_error l k = Some x ->
  (times f (set_nth k y l) + (if f x then 1 else 0) = times f l + (if f y then 1 else 0))%nat.
Proof.
  induction l as [|z l IH]; intros [|k] x y H; cbn in H; try discriminate; cbn [set_nth]; rewrite !times_cons.
  - injection H as ->. lia.
  - specialize (IH _ _ y H). lia.
Qed.
Lemma times_zero : forall A (f : A -> bool) l, (forall x, In x l -> f x = false) -> times f l = 0%nat.
Proof.
  intros A f l H. unfold times. induction l as [|x l IH]; [reflexivity|]. cbn [filter].
  rewrite (H x) by (left; reflexivity). apply IH. intros y Hy. apply H. right; exact Hy.
Qed.
Lemma times_pos : forall A (f : A -> bool) l x, In x l -> f x = true -> (1 <= times f l)%nat.
Proof.
  intros A f l x. induction l as [|y l IH]; [intros []|]. rewrite times_cons. intros [->|H] E.
  - rewrite E. lia.
  - specialize (IH H E). lia.
Qed.
Lemma times_in : forall A (f : A -> bool) l, (1 <= times f l)%nat -> exists x, In x l /\ f x = true.
Proof.
  intros A f l. unfold times. destruct (filter f l) as [|x t] eqn:E; cbn; [lia|]. intros _. exists x.
  apply filter_In. rewrite E. left; reflexivity.
Qed.
Lemma occurs_nodup : forall l u, NoDup l -> (occurs u l <= 1)%nat.
Proof.
  intros l u N. unfold occurs. induction N as [|x l Nx N IH]; [cbn; lia|]. rewrite times_cons.
  destruct (x =? u) eqn:E; [|lia]. apply Z.eqb_eq in E. subst.
  rewrite times_zero; [lia|]. intros v Hv. apply Z.eqb_neq. intros ->. contradiction.
Qed.
Lemma occurs_in : forall l u, In u l -> (1 <= occurs u l)%nat.
Proof. intros. eapply times_pos; [exact H|]. apply Z.eqb_refl. Qed.
Lemma occurs_out : forall l u, ~ In u l -> occurs u l = 0%nat.
Proof. intros l u H. apply times_zero. intros v Hv. apply Z.eqb_neq. intros ->. contradiction. Qed.

Lemma in_remove_nth : forall A (l : list A) n x, In x (remove_nth n l) -> In x l.
Proof. induction l as [|y l IH]; intros [|n] x H; cbn in *; auto. destruct H; eauto. Qed.
Lemma in_set_nth : forall A (l : list A) n y x, In x (set_nth n y l) -> x = y \/ In x l.
Proof. induction l as [|z l IH]; intros [|n] y x H; cbn in *; auto; intuition. apply IH in H0. intuition. Qed.

Lemma sends_app : forall a b, sends (a ++ b) = sends a ++ sends b.
Proof. intros. apply flat_map_app. Qed.

Lemma nodup_app_l : forall A (a b : list A), NoDup (a ++ b) -> NoDup a.
Proof.
  induction a as [|x a IH]; intros b H; [constructor|]. inversion H; subst. constructor; eauto.
  intros I. apply H2. apply in_or_app; auto.
Qed.
Lemma nodup_app_disj : forall A (a b : list A) x, NoDup (a ++ b) -> In x a -> In x b -> False.
Proof.
  induction a as [|y a IH]; intros b x H Ha Hb; [exact Ha|]. inversion H; subst. destruct Ha as [->|Ha].
  - apply H2. apply in_or_app; auto.
  - eapply IH; eauto.
Qed.
Lemma nodup_snoc : forall A (a : list A) x, NoDup a -> ~ In x a -> NoDup (a ++ [x]).
Proof.
  induction a as [|y a IH]; intros x N H; cbn; [constructor; [tauto|constructor]|].
  inversion N; subst. constructor; [|apply IH; auto; intros I; apply H; right; exact I].
  intros I. apply in_app_or in I. destruct I as [I|[->|[]]]; [contradiction|]. apply H. left; reflexivity.
Qed.

(** * The invariant *)
Section Copies.
Variable fits : list Z -> Z -> bool.
Variable copies : Z -> nat.
Hypothesis some_copy : forall u, (1 <= copies u)%nat.

Record c_inv (ops : list gop) (d : gdev) (tr : list gevent) : Prop := mkCInv {
  ci_fifo : accepted tr = handed tr ++ g_queue d;
  ci_sub : forall u, In u (accepted tr) -> In u (sends ops);
  ci_known : forall u, find_tag u (g_tags d) <> None -> In u (sends ops);
  ci_nodup : NoDup (accepted tr);
  ci_tags : forall u, In u (g_queue d) -> find_tag u (g_tags d) <> None;
  ci_jobs : forall j, In j (g_mac d) -> In (job_uid j) (handed tr);
  ci_busy : g_busy d = true -> g_mac d <> [];
  ci_idle : g_busy d = false -> g_queue d = [];
  ci_air : forall u, (airs u tr + held u (g_mac d) = copies u * occurs u (handed tr))%nat;
  ci_done : forall u, (dones u tr + flying u (g_mac d) = airs u tr)%nat }.

Lemma c_init : forall a p, c_inv [] (g_init a p) [].
Proof. intros. constructor; cbn; try tauto; try discriminate; try constructor; intros; lia. Qed.

(** TransmitStart from an idle device with something to send. *)
Lemma c_transmit_start : forall ops d tr u q, g_busy d = false -> g_queue d = u :: q ->
  accepted tr = handed tr ++ g_queue d -> (forall v, In v (accepted tr) -> In v (sends ops)) ->
  (forall v, find_tag v (g_tags d) <> None -> In v (sends ops)) -> NoDup (accepted tr) ->
  (forall v, In v (g_queue d) -> find_tag v (g_tags d) <> None) ->
  (forall j, In j (g_mac d) -> In (job_uid j) (handed tr)) ->
  (forall v, (airs v tr + held v (g_mac d) = copies v * occurs v (handed tr))%nat) ->
  (forall v, (dones v tr + flying v (g_mac d) = airs v tr)%nat) ->
  exists d', g_transmit_start copies d = Ok (d', [EHand u]) /\ c_inv ops d' (tr ++ [EHand u]).
Proof.
  intros ops d tr u q B Q Fi Su Kn Nd Tg Jo Ai Do. unfold g_transmit_start. rewrite B, Q. cbn [negb assert_ rbind].
  destruct (find_tag u (g_tags d)) as [t|] eqn:T; [|exfalso; apply (Tg u); [rewrite Q; left; reflexivity|exact T]].
  eexists. split; [reflexivity|].
  constructor; cbn [g_queue g_tags g_mac g_busy g_remote g_power].
  - rewrite accepted_app, handed_app, Fi, Q. cbn. rewrite app_nil_r, <- app_assoc. reflexivity.
  - rewrite accepted_app. cbn. rewrite app_nil_r. exact Su.
  - exact Kn.
  - rewrite accepted_app. cbn. rewrite app_nil_r. exact Nd.
  - intros v Hv. apply Tg. rewrite Q. right; exact Hv.
  - intros j Hj. rewrite handed_app. cbn. apply in_or_app. apply in_app_or in Hj. destruct Hj as [Hj|Hj].
    + left. apply Jo. exact Hj.
    + right. apply repeat_spec in Hj. subst j. left; reflexivity.
  - intros _ E. apply app_eq_nil in E. destruct E as [_ E]. specialize (some_copy u).
    destruct (copies u); [lia|discriminate].
  - discriminate.
  - intros v. specialize (Ai v). unfold airs, held, occurs in *. rewrite handed_app, !times_app, times_repeat.
    cbn [handed flat_map app]. rewrite !times_cons. cbn [job_uid job_on_air negb times filter length].
    rewrite andb_true_r. unfold times in *. cbn [filter length].
    destruct (u =? v) eqn:E; [apply Z.eqb_eq in E; subst u|]; nia.
  - intros v. specialize (Do v). unfold dones, airs, flying in *. rewrite !times_app, times_repeat.
    cbn [job_uid job_on_air]. rewrite andb_false_r. rewrite !times_cons. unfold times in *. cbn [filter length]. lia.
Qed.

Lemma c_step : forall ops d tr o r, c_inv ops d tr ->
  (forall u p, o = GSend u p -> ~ In u (sends ops)) -> g_step fits copies d o = Some r ->
  exists d' ev, r = Ok (d', ev) /\ c_inv (ops ++ [o]) d' (tr ++ ev).
Proof.
  intros ops d tr o r I Fr St. destruct I as [Fi Su Kn Nd Tg Jo Bu Id Ai Do].
  destruct o as [u proto|a|p|k]; cbn [g_step] in St.
  - apply some_inj in St. subst r. specialize (Fr u proto eq_refl).
    unfold g_send. destruct (find_tag u (g_tags d)) eqn:T.
    { exfalso. apply Fr. apply Kn. congruence. }
    set (tags := (u, mkTag (g_remote d) (u16 proto) (g_power d)) :: g_tags d).
    assert (So : sends (ops ++ [GSend u proto]) = sends ops ++ [u]) by (rewrite sends_app; reflexivity).
    assert (Kn' : forall v, find_tag v tags <> None -> In v (sends (ops ++ [GSend u proto]))).
    { intros v Hv. rewrite So. apply in_or_app. unfold tags in Hv. rewrite find_tag_cons in Hv.
      destruct (u =? v) eqn:E; [apply Z.eqb_eq in E; subst; right; left; reflexivity|left; auto]. }
    destruct (fits (g_queue d) u).
    + assert (Fi' : accepted (tr ++ [EAccept u]) = handed (tr ++ [EAccept u]) ++ g_queue d ++ [u]).
      { rewrite accepted_app, handed_app, Fi. cbn. rewrite app_nil_r, <- app_assoc. reflexivity. }
      assert (Su' : forall v, In v (accepted (tr ++ [EAccept u])) -> In v (sends (ops ++ [GSend u proto]))).
      { intros v Hv. rewrite So. rewrite accepted_app in Hv. apply in_or_app. apply in_app_or in Hv.
        destruct Hv as [Hv|Hv]; [left; auto|right; exact Hv]. }
      assert (Nd' : NoDup (accepted (tr ++ [EAccept u]))).
      { rewrite accepted_app. apply nodup_snoc; auto. }
      assert (Tg' : forall v, In v (g_queue d ++ [u]) -> find_tag v tags <> None).
      { intros v Hv. unfold tags. rewrite find_tag_cons. destruct (u =? v) eqn:E; [discriminate|].
        apply Tg. apply in_app_or in Hv. destruct Hv as [Hv|[->|[]]]; [exact Hv|].
        rewrite Z.eqb_refl in E. discriminate. }
      assert (Jo' : forall j, In j (g_mac d) -> In (job_uid j) (handed (tr ++ [EAccept u]))).
      { intros j Hj. rewrite handed_app. cbn. rewrite app_nil_r. auto. }
      assert (Ai' : forall v, (airs v (tr ++ [EAccept u]) + held v (g_mac d) =
                               copies v * occurs v (handed (tr ++ [EAccept u])))%nat).
      { intros v. rewrite handed_app. cbn [handed flat_map app]. rewrite app_nil_r. rewrite <- Ai.
        unfold airs. rewrite times_app, times_cons. unfold times. cbn [filter length]. lia. }
      assert (Do' : forall v, (dones v (tr ++ [EAccept u]) + flying v (g_mac d) = airs v (tr ++ [EAccept u]))%nat).
      { intros v. specialize (Do v). unfold airs, dones in *. rewrite !times_app, !times_cons.
        unfold times in *. cbn [filter length]. lia. }
      destruct (g_busy d) eqn:B.
      * eexists _, _. split; [reflexivity|]. constructor; cbn; auto. discriminate.
      * rewrite (Id eq_refl) in *. cbn [app] in *.
        edestruct (c_transmit_start (ops ++ [GSend u proto])
          (mkG (g_remote d) (g_power d) false [u] tags (g_mac d)) (tr ++ [EAccept u]) u []) as (d' & E & I');
          auto.
        rewrite E. cbn [rbind]. eexists _, _. split; [reflexivity|]. rewrite <- app_assoc in I'. exact I'.
    + eexists _, _. split; [reflexivity|].
      constructor; cbn [g_queue g_tags g_mac g_busy g_remote g_power]; auto.
      * rewrite accepted_app, handed_app, Fi. cbn. rewrite !app_nil_r. reflexivity.
      * intros v Hv. rewrite accepted_app in Hv. cbn in Hv. rewrite app_nil_r in Hv. rewrite So.
        apply in_or_app; auto.
      * rewrite accepted_app. cbn. rewrite app_nil_r. exact Nd.
      * intros v Hv. unfold tags. rewrite find_tag_cons. destruct (u =? v); [discriminate|auto].
      * intros j Hj. rewrite handed_app. cbn. rewrite app_nil_r. auto.
      * intros v. rewrite handed_app. cbn [handed flat_map app]. rewrite app_nil_r. rewrite <- Ai.
        unfold airs. rewrite times_app, times_cons. unfold times. cbn [filter length]. lia.
      * intros v. specialize (Do v). unfold airs, dones in *. rewrite !times_app, !times_cons.
        unfold times in *. cbn [filter length]. lia.
  - apply some_inj in St. subst r. eexists _, _. split; [reflexivity|]. rewrite app_nil_r.
    constructor; cbn; auto; intros; rewrite sends_app; cbn; rewrite app_nil_r; auto.
  - apply some_inj in St. subst r. eexists _, _. split; [reflexivity|]. rewrite app_nil_r.
    constructor; cbn; auto; intros; rewrite sends_app; cbn; rewrite app_nil_r; auto.
  - unfold g_mac_step in St. destruct (nth_error (g_mac d) k) as [j|] eqn:Nk; [|discriminate].
    assert (So : sends (ops ++ [GMac k]) = sends ops) by (rewrite sends_app; apply app_nil_r).
    destruct j as [u t oa]. cbn [job_uid job_tag job_on_air] in St.
    assert (Hu : In u (handed tr)) by (apply (Jo (mkJob u t oa)); eapply nth_error_In; exact Nk).
    destruct oa; apply some_inj in St; subst r.
    + set (e := EDone u).
      assert (Ac : accepted (tr ++ [e]) = accepted tr) by (rewrite accepted_app; apply app_nil_r).
      assert (Ha : handed (tr ++ [e]) = handed tr) by (rewrite handed_app; apply app_nil_r).
      assert (Ai' : forall v, (airs v (tr ++ [e]) + held v (remove_nth k (g_mac d)) =
                               copies v * occurs v (handed (tr ++ [e])))%nat).
      { intros v. rewrite Ha, <- Ai. unfold airs, held. rewrite times_app, times_cons.
        rewrite (times_nth _ _ (g_mac d) k _ Nk). cbn [job_uid job_on_air negb]. rewrite andb_false_r.
        unfold times. cbn [filter length e]. lia. }
      assert (Do' : forall v, (dones v (tr ++ [e]) + flying v (remove_nth k (g_mac d)) = airs v (tr ++ [e]))%nat).
      { intros v. specialize (Do v). unfold airs, dones, flying in *. rewrite !times_app, !times_cons.
        rewrite (times_nth _ _ (g_mac d) k _ Nk) in Do. cbn [job_uid job_on_air e] in *. rewrite andb_true_r in Do.
        unfold times in *. cbn [filter length]. lia. }
      assert (Tg' : forall v, In v (g_queue d) -> find_tag v (remove_tag u (g_tags d)) <> None).
      { intros v Hv. rewrite find_remove_other; [auto|]. intros ->.
        rewrite Fi in Nd. eapply nodup_app_disj; eauto. }
      assert (Kn' : forall v, find_tag v (remove_tag u (g_tags d)) <> None -> In v (sends (ops ++ [GMac k]))).
      { intros v Hv. rewrite So. apply Kn. intros N. apply Hv. destruct (Z.eq_dec v u) as [->|Ne].
        - apply find_remove_same.
        - rewrite find_remove_other; auto. }
      assert (Jo' : forall j, In j (remove_nth k (g_mac d)) -> In (job_uid j) (handed (tr ++ [e]))).
      { intros j Hj. rewrite Ha. apply Jo. eapply in_remove_nth; eauto. }
      unfold g_transmit_complete. cbn [g_queue g_remote g_power g_tags g_mac g_busy].
      destruct (g_queue d) as [|w q] eqn:Q.
      * eexists _, _. split; [reflexivity|].
        fold e. constructor; cbn [g_queue g_tags g_mac g_busy g_remote g_power]; auto; try discriminate.
        -- rewrite Ac, Ha. exact Fi.
        -- rewrite Ac, So. exact Su.
        -- rewrite Ac. exact Nd.
      * edestruct (c_transmit_start (ops ++ [GMac k])
          (mkG (g_remote d) (g_power d) false (w :: q) (remove_tag u (g_tags d)) (remove_nth k (g_mac d)))
          (tr ++ [e]) w q) as (d' & E & I'); cbn [g_queue g_tags g_mac g_busy g_remote g_power]; auto.
        -- rewrite Ac, Ha. exact Fi.
        -- rewrite Ac, So. exact Su.
        -- rewrite Ac. exact Nd.
        -- rewrite E. cbn [rbind]. eexists _, _. split; [reflexivity|]. rewrite <- app_assoc in I'. exact I'.
    + eexists _, _. split; [reflexivity|].
      assert (Ac : accepted (tr ++ [EAir u t]) = accepted tr) by (rewrite accepted_app; apply app_nil_r).
      assert (Ha : handed (tr ++ [EAir u t]) = handed tr) by (rewrite handed_app; apply app_nil_r).
      constructor; cbn [g_queue g_tags g_mac g_busy g_remote g_power]; rewrite ?Ac, ?Ha, ?So; auto.
      * intros j Hj. apply in_set_nth in Hj. destruct Hj as [->|Hj]; [exact Hu|auto].
      * intros Bz E. apply (f_equal (@length _)) in E. rewrite set_nth_length in E.
        apply Bu in Bz. destruct (g_mac d); [congruence|discriminate].
      * intros v. rewrite <- Ai. unfold airs, held. rewrite times_app, times_cons.
        pose proof (times_set _ (fun j => (job_uid j =? v) && negb (job_on_air j)) _ _ _ (mkJob u t true) Nk) as E.
        cbn [job_uid job_on_air negb] in E. rewrite andb_true_r, andb_false_r in E.
        rewrite times_nil. lia.
      * intros v. specialize (Do v). unfold airs, dones, flying in *. rewrite !times_app, !times_cons.
        pose proof (times_set _ (fun j => (job_uid j =? v) && job_on_air j) _ _ _ (mkJob u t true) Nk) as E.
        cbn [job_uid job_on_air negb] in E. rewrite andb_true_r, andb_false_r in E.
        rewrite !times_nil. destruct (u =? v); lia.
Qed.

Lemma c_run : forall ops a p r, NoDup (sends ops) -> g_run fits copies (g_init a p) ops = Some r ->
  exists d tr, r = Ok (d, tr) /\ c_inv ops d tr.
Proof.
  induction ops as [|o ops IH] using rev_ind; intros a p r N R.
  - cbn in R. injection R as <-. eexists _, _. split; [reflexivity|]. apply c_init.
  - rewrite sends_app in N. rewrite g_run_app in R.
    destruct (g_run fits copies (g_init a p) ops) as [x|] eqn:G; [|discriminate].
    destruct (IH a p x (nodup_app_l _ _ _ N) G) as (d & tr & -> & I).
    cbn [g_run] in R. destruct (g_step fits copies d o) as [y|] eqn:St; [|discriminate].
    destruct (c_step ops d tr o y I) as (d' & ev & -> & I'); [|exact St|].
    + intros u q -> Hu. cbn in N. eapply nodup_app_disj; [exact N|exact Hu|left; reflexivity].
    + injection R as <-. rewrite app_nil_r. eexists _, _. split; [reflexivity|exact I'].
Qed.

(** The MAC working on its first job empties it. *)
Definition burden (d : gdev) : nat :=
  (fold_right (fun j n => (if job_on_air j then 1 else 2) + n)%nat 0%nat (g_mac d) +
   fold_right (fun u n => 2 * copies u + n)%nat 0%nat (g_queue d))%nat.

Lemma burden_repeat : forall u t n,
  fold_right (fun j n => (if job_on_air j then 1 else 2) + n)%nat 0%nat (repeat (mkJob u t false) n) = (2 * n)%nat.
Proof. induction n as [|n IH]; cbn [repeat fold_right]; [reflexivity|]. rewrite IH. cbn [job_on_air]. lia. Qed.

Lemma burden_app : forall a b,
  fold_right (fun j n => (if job_on_air j then 1 else 2) + n)%nat 0%nat (a ++ b) =
  (fold_right (fun j n => (if job_on_air j then 1 else 2) + n)%nat 0%nat a +
   fold_right (fun j n => (if job_on_air j then 1 else 2) + n)%nat 0%nat b)%nat.
Proof. induction a as [|j a IH]; intros; cbn [app fold_right]; [reflexivity|]. rewrite IH. lia. Qed.

Lemma burden_step : forall d d' ev, g_step fits copies d (GMac 0) = Some (Ok (d', ev)) ->
  burden d = S (burden d') /\ accepted ev = [].
Proof.
  intros d d' ev St. cbn [g_step] in St. unfold g_mac_step in St. unfold burden.
  destruct (g_mac d) as [|j m] eqn:M; cbn [nth_error] in St; [discriminate|]. cbn [fold_right].
  destruct (job_on_air j) eqn:E; apply some_inj in St.
  - unfold g_transmit_complete in St. cbn [g_queue g_remote g_power g_tags g_mac g_busy remove_nth] in St.
    destruct (g_queue d) as [|w q] eqn:Q.
    + injection St as <- <-. cbn. split; reflexivity.
    + unfold g_transmit_start in St. cbn [negb g_busy assert_ rbind g_queue g_tags g_remote g_power g_mac] in St.
      destruct (find_tag w _); [|discriminate]. cbn [rbind] in St. injection St as <- <-.
      cbn [g_mac g_queue fold_right]. rewrite burden_app, burden_repeat. split; [lia|reflexivity].
  - injection St as <- <-. cbn [g_mac g_queue set_nth fold_right job_on_air]. split; [lia|reflexivity].
Qed.

Lemma c_drain : forall n ops a p d tr, burden d = n -> NoDup (sends ops) ->
  g_run fits copies (g_init a p) ops = Some (Ok (d, tr)) ->
  exists k d' tr', g_run fits copies (g_init a p) (ops ++ repeat (GMac 0) k) = Some (Ok (d', tr')) /\
    g_mac d' = [] /\ accepted tr' = accepted tr.
Proof.
  induction n as [|n IH]; intros ops a p d tr Bn N R.
  - exists 0%nat, d, tr. cbn [repeat]. rewrite app_nil_r. split; [exact R|]. split; [|reflexivity].
    destruct (g_mac d) as [|j m] eqn:M; [reflexivity|]. unfold burden in Bn. rewrite M in Bn. cbn [fold_right] in Bn.
    destruct (job_on_air j); lia.
  - destruct (g_mac d) as [|j m] eqn:M.
    + exists 0%nat, d, tr. cbn [repeat]. rewrite app_nil_r. auto.
    + destruct (c_run _ _ _ _ N R) as (d0 & tr0 & E & I). injection E as <- <-.
      destruct (g_step fits copies d (GMac 0)) as [y|] eqn:St.
      2:{ cbn [g_step] in St. unfold g_mac_step in St. rewrite M in St. cbn in St. destruct (job_on_air j); discriminate. }
      destruct (c_step ops d tr (GMac 0) y I) as (d' & ev & -> & I'); [discriminate|exact St|].
      destruct (burden_step _ _ _ St) as [Bd Ae].
      destruct (IH (ops ++ [GMac 0]) a p d' (tr ++ ev)) as (k & d2 & tr2 & R2 & M2 & A2).
      * lia.
      * rewrite sends_app. cbn. rewrite app_nil_r. exact N.
      * rewrite g_run_app, R. cbn [g_run]. rewrite St, app_nil_r. reflexivity.
      * exists (S k), d2, tr2. cbn [repeat]. rewrite <- app_assoc in R2. cbn [app] in R2. split; [exact R2|].
        split; [exact M2|]. rewrite A2, accepted_app, Ae, app_nil_r. reflexivity.
Qed.
End Copies.
