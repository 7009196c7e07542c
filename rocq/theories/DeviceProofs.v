(** Invariants of the devices. *)
From Coq Require Import ZArith List Lia Bool Ascii String Permutation.
From Verif Require Import Base SatAddrModel AddrTextModel SatAddrProofs DeviceModel DeviceSpec.
Import ListNotations.
Open Scope Z_scope.

Lemma some_inj : forall A (x y : A), Some x = Some y -> x = y.
Proof. intros A x y [= ->]. reflexivity. Qed.

(** * Tags *)
Lemma find_tag_cons : forall A u v (x : A) l, find_tag u ((v, x) :: l) = if v =? u then Some x else find_tag u l.
Proof. intros. unfold find_tag. cbn. destruct (v =? u); reflexivity. Qed.

Lemma find_remove_other : forall A u v (l : list (Z * A)), u <> v -> find_tag u (remove_tag v l) = find_tag u l.
Proof.
  intros A u v l N. unfold find_tag, remove_tag. induction l as [|[w x] l IH]; cbn; [reflexivity|].
  destruct (w =? v) eqn:E; cbn; destruct (w =? u) eqn:F; auto.
  apply Z.eqb_eq in E; apply Z.eqb_eq in F; congruence.
Qed.

Lemma find_remove_same : forall A v (l : list (Z * A)), find_tag v (remove_tag v l) = None.
Proof.
  intros A v l. unfold find_tag, remove_tag. induction l as [|[w x] l IH]; cbn; [reflexivity|].
  destruct (w =? v) eqn:E; cbn; [exact IH|]. rewrite E. exact IH.
Qed.

Lemma find_tag_in : forall A u (x : A) l, find_tag u l = Some x -> In (u, x) l.
Proof.
  intros A u x l. unfold find_tag. induction l as [|[w y] l IH]; cbn; [discriminate|].
  destruct (w =? u) eqn:E; [|auto]. apply Z.eqb_eq in E. cbn. intros [= <-]. left. congruence.
Qed.

Lemma remove_tag_in : forall A u (e : Z * A) l, In e (remove_tag u l) -> In e l.
Proof. intros A u e l H. unfold remove_tag in H. apply filter_In in H. tauto. Qed.

Arguments find_tag : simpl never.
Arguments remove_tag : simpl never.

(** * Traces *)
Lemma accepted_app : forall a b, accepted (a ++ b) = accepted a ++ accepted b.
Proof. intros. apply flat_map_app. Qed.
Lemma handed_app : forall a b, handed (a ++ b) = handed a ++ handed b.
Proof. intros. apply flat_map_app. Qed.
Lemma phase_app : forall a b, phase_of (a ++ b) = fold_left phase_step b (phase_of a).
Proof. intros. apply fold_left_app. Qed.

Lemma g_run_app : forall fits copies ops1 ops2 d,
  g_run fits copies d (ops1 ++ ops2) =
  match g_run fits copies d ops1 with
  | Some (Ok (d1, ev1)) =>
      match g_run fits copies d1 ops2 with Some (Ok (d2, ev2)) => Some (Ok (d2, ev1 ++ ev2)) | x => x end
  | x => x
  end.
Proof.
  induction ops1 as [|o l IH]; intros ops2 d; cbn [app g_run].
  - destruct (g_run fits copies d ops2) as [[[d2 e2]| | |]|]; reflexivity.
  - destruct (g_step fits copies d o) as [[[d1 e1]| | |]|]; try reflexivity.
    rewrite IH. destruct (g_run fits copies d1 l) as [[[d2 e2]| | |]|]; try reflexivity.
    destruct (g_run fits copies d2 ops2) as [[[d3 e3]| | |]|]; try reflexivity.
    rewrite app_assoc. reflexivity.
Qed.

(** An invariant of device and trace. *)
Lemma g_run_inv : forall fits copies (I : gdev -> list gevent -> Prop),
  (forall d tr o d' ev, I d tr -> g_step fits copies d o = Some (Ok (d', ev)) -> I d' (tr ++ ev)) ->
  forall ops d tr d' ev, I d tr -> g_run fits copies d ops = Some (Ok (d', ev)) -> I d' (tr ++ ev).
Proof.
  intros fits copies I St. induction ops as [|o l IH]; intros d tr d' ev Id R; cbn [g_run] in R.
  - injection R as <- <-. rewrite app_nil_r. exact Id.
  - destruct (g_step fits copies d o) as [[[d1 e1]| | |]|] eqn:E; try discriminate.
    destruct (g_run fits copies d1 l) as [[[d2 e2]| | |]|] eqn:F; try discriminate.
    injection R as <- <-. rewrite app_assoc. eapply IH; [|exact F]. eapply St; eauto.
Qed.

(** * A MAC that sends each packet once *)
Definition once (_ : Z) : nat := 1%nat.

Definition g_phase (d : gdev) : option phase :=
  match g_busy d, g_mac d with
  | false, [] => Some PIdle
  | true, [j] => Some (if job_on_air j then PAir (job_uid j) else PHeld (job_uid j))
  | _, _ => None
  end.

Record g_inv (d : gdev) (tr : list gevent) : Prop := mkGInv {
  gi_fifo : accepted tr = handed tr ++ g_queue d;
  gi_phase : phase_of tr = g_phase d;
  gi_some : g_phase d <> None;
  gi_idle : g_busy d = false -> g_queue d = [];
  gi_tags : forall u, In u (map job_uid (g_mac d) ++ g_queue d) -> find_tag u (g_tags d) <> None;
  gi_nodup : NoDup (map job_uid (g_mac d) ++ g_queue d) }.

Lemma g_phase_cases : forall d, g_phase d <> None ->
  (g_busy d = false /\ g_mac d = []) \/ (g_busy d = true /\ exists j, g_mac d = [j]).
Proof.
  intros d H. unfold g_phase in H. destruct (g_busy d), (g_mac d) as [|j [|k m]]; try congruence; eauto.
Qed.

Section Once.
Variable fits : list Z -> Z -> bool.

Lemma g_step_inv : forall d tr o d' ev,
  g_inv d tr -> g_step fits once d o = Some (Ok (d', ev)) -> g_inv d' (tr ++ ev).
Proof.
  intros d tr o d' ev I St. destruct I as [Fi Ph So Id Tg Nd].
  destruct (g_phase_cases d So) as [[B M]|[B [j M]]]; destruct d as [ra pw bs q tg mac]; cbn in *; subst.
  - (* idle *)
    rewrite (Id eq_refl) in *. destruct o as [u proto|a|p|k]; cbn in St.
    + unfold g_send in St. cbn in St. destruct (find_tag u tg) eqn:T; [discriminate|].
      destruct (fits [] u); cbn in St.
      * unfold g_transmit_start in St. cbn in St. rewrite find_tag_cons, Z.eqb_refl in St. cbn in St.
        injection St as <- <-. constructor; cbn.
        -- rewrite accepted_app, handed_app, Fi. cbn. rewrite !app_nil_r. reflexivity.
        -- rewrite phase_app, Ph. cbn. reflexivity.
        -- discriminate.
        -- discriminate.
        -- intros v [<-|[]]. rewrite find_tag_cons, Z.eqb_refl. discriminate.
        -- constructor; [tauto|constructor].
      * injection St as <- <-. constructor; cbn; auto.
        -- rewrite accepted_app, handed_app, Fi. cbn. rewrite !app_nil_r. reflexivity.
        -- rewrite phase_app, Ph. reflexivity.
    + injection St as <- <-. rewrite app_nil_r. constructor; auto.
    + injection St as <- <-. rewrite app_nil_r. constructor; auto.
    + unfold g_mac_step in St. cbn in St. destruct k; discriminate.
  - (* busy *)
    destruct o as [u proto|a|p|k]; cbn in St.
    + unfold g_send in St. cbn in St. destruct (find_tag u tg) eqn:T; [discriminate|].
      assert (Nu : ~ In u (job_uid j :: q)). { intros In_. apply (Tg u In_ T). }
      destruct (fits q u); cbn in St; injection St as <- <-; constructor; cbn; auto; try discriminate.
      * rewrite accepted_app, handed_app, Fi. cbn. rewrite app_nil_r, app_assoc. reflexivity.
      * rewrite phase_app, Ph. cbn. destruct (job_on_air j); reflexivity.
      * intros v Hv. rewrite find_tag_cons. destruct (u =? v) eqn:E; [discriminate|].
        apply Tg. destruct Hv as [Hv|Hv]; [left; exact Hv|]. apply in_app_or in Hv. destruct Hv as [Hv|[Hv|[]]].
        -- right; exact Hv.
        -- subst v. rewrite Z.eqb_refl in E. discriminate.
      * change (NoDup ((job_uid j :: q) ++ [u])). apply (Permutation_NoDup (l := u :: job_uid j :: q)).
        -- apply Permutation_cons_append.
        -- constructor; assumption.
      * rewrite accepted_app, handed_app, Fi. cbn. rewrite !app_nil_r. reflexivity.
      * rewrite phase_app, Ph. cbn. destruct (job_on_air j); reflexivity.
      * intros v Hv. rewrite find_tag_cons. destruct (u =? v) eqn:E; [discriminate|]. apply Tg. exact Hv.
    + injection St as <- <-. rewrite app_nil_r. constructor; auto.
    + injection St as <- <-. rewrite app_nil_r. constructor; auto.
    + unfold g_mac_step in St. cbn in St. destruct k as [|[|k]]; cbn in St; try discriminate.
      destruct j as [v t oa]. cbn in *. destruct oa; apply some_inj in St.
      * unfold g_transmit_complete in St. cbn in St. destruct q as [|w q].
        -- injection St as <- <-. constructor; cbn; auto; try discriminate; try tauto.
           ++ rewrite accepted_app, handed_app, Fi. cbn. rewrite !app_nil_r. reflexivity.
           ++ rewrite phase_app, Ph. cbn. rewrite Z.eqb_refl. reflexivity.
           ++ constructor.
        -- unfold g_transmit_start in St. cbn in St.
           assert (Nvw : w <> v). { inversion Nd. cbn in H1. intuition. }
           rewrite find_remove_other in St by exact Nvw.
           destruct (find_tag w tg) as [t'|] eqn:T; [|exfalso; apply (Tg w); auto; right; left; reflexivity].
           cbn in St. injection St as <- <-. constructor; cbn; auto; try discriminate.
           ++ rewrite accepted_app, handed_app, Fi. cbn. rewrite app_nil_r, <- app_assoc. reflexivity.
           ++ rewrite phase_app, Ph. cbn. rewrite Z.eqb_refl. reflexivity.
           ++ intros x Hx. rewrite find_remove_other; [apply Tg; right; exact Hx|].
              intros ->. inversion Nd. auto.
           ++ inversion Nd. exact H2.
      * injection St as <- <-. constructor; cbn; auto; try discriminate.
        -- rewrite accepted_app, handed_app, Fi. cbn. rewrite !app_nil_r. reflexivity.
        -- rewrite phase_app, Ph. cbn. rewrite Z.eqb_refl. reflexivity.
Qed.

Lemma g_init_inv : forall a p, g_inv (g_init a p) [].
Proof. intros. constructor; cbn; auto; try discriminate; try tauto. constructor. Qed.

(** The only way to fail is to send a packet that still carries its tag. *)
Lemma g_step_fails : forall d tr o, g_inv d tr ->
  match g_step fits once d o with
  | Some Assert => exists u p, o = GSend u p /\ find_tag u (g_tags d) <> None
  | Some Abort | Some UB => False
  | Some (Ok _) => True
  | None => True
  end.
Proof.
  intros d tr o I. destruct I as [Fi Ph So Id Tg Nd].
  destruct (g_phase_cases d So) as [[B M]|[B [j M]]]; destruct d as [ra pw bs q tg mac]; cbn in *; subst.
  - rewrite (Id eq_refl) in *. destruct o as [u proto|a|p|k]; cbn; auto.
    + unfold g_send. cbn. destruct (find_tag u tg) eqn:T; [exists u, proto; split; congruence|].
      destruct (fits [] u); cbn; auto.
      unfold g_transmit_start. cbn. rewrite find_tag_cons, Z.eqb_refl. cbn. auto.
    + unfold g_mac_step. cbn. destruct k; exact Logic.I.
  - destruct o as [u proto|a|p|k]; cbn; auto.
    + unfold g_send. cbn. destruct (find_tag u tg) eqn:T; [exists u, proto; split; congruence|].
      destruct (fits q u); cbn; auto.
    + unfold g_mac_step. cbn. destruct k as [|[|k]]; cbn; auto.
      destruct j as [v t oa]. cbn in *. destruct oa; auto.
      unfold g_transmit_complete. cbn. destruct q as [|w q]; auto.
      unfold g_transmit_start. cbn.
      assert (Nvw : w <> v). { inversion Nd. cbn in H1. intuition. }
      rewrite find_remove_other by exact Nvw.
      destruct (find_tag w tg) as [t'|] eqn:T; [|exfalso; apply (Tg w); auto; right; left; reflexivity].
      cbn. auto.
Qed.
End Once.

(** Tagged packets have been sent. *)
Lemma g_step_tagged : forall fits copies d o d' ev u, g_step fits copies d o = Some (Ok (d', ev)) ->
  find_tag u (g_tags d') <> None -> find_tag u (g_tags d) <> None \/ exists p, o = GSend u p.
Proof.
  intros fits copies d o d' ev u St T.
  assert (TS : forall x y e, g_transmit_start copies x = Ok (y, e) -> g_tags y = g_tags x).
  { intros x y e H. unfold g_transmit_start in H. destruct (negb (g_busy x)); cbn in H; try discriminate.
    destruct (g_queue x); try discriminate. destruct (find_tag z (g_tags x)); try discriminate.
    injection H as <- <-. reflexivity. }
  destruct o as [v proto|a|p|k]; cbn in St.
  - unfold g_send in St. destruct (find_tag v (g_tags d)) eqn:F; [discriminate|].
    assert (G : g_tags d' = (v, mkTag (g_remote d) (u16 proto) (g_power d)) :: g_tags d).
    { destruct (fits (g_queue d) v); [destruct (g_busy d)|]; try (injection St as <- <-; reflexivity).
      destruct (g_transmit_start copies _) as [[d2 e2]| | |] eqn:H in St; cbn in St; try discriminate.
      injection St as <- <-. rewrite (TS _ _ _ H). reflexivity. }
    rewrite G, find_tag_cons in T. destruct (v =? u) eqn:E; [|left; exact T].
    apply Z.eqb_eq in E. subst. right. eauto.
  - injection St as <- <-. left; exact T.
  - injection St as <- <-. left; exact T.
  - left. unfold g_mac_step in St. destruct (nth_error (g_mac d) k) as [j|] eqn:F; [|discriminate].
    destruct (job_on_air j).
    + apply some_inj in St. unfold g_transmit_complete in St. cbn [g_queue g_remote g_power g_tags g_mac g_busy] in St.
      assert (G : g_tags d' = remove_tag (job_uid j) (g_tags d)).
      { destruct (g_queue d); [injection St as <- <-; reflexivity|].
        destruct (g_transmit_start copies _) as [[d2 e2]| | |] eqn:H in St; cbn in St; try discriminate.
        injection St as <- <-. rewrite (TS _ _ _ H). reflexivity. }
      rewrite G in T. intros N. apply T. destruct (Z.eq_dec u (job_uid j)) as [->|Ne].
      * apply find_remove_same.
      * rewrite find_remove_other by exact Ne. exact N.
    + injection St as <- <-. exact T.
Qed.

Lemma g_run_ok : forall fits ops d tr r, g_inv d tr -> g_run fits once d ops = Some r ->
  r <> UB /\ r <> Abort /\
  (NoDup (sends ops) -> (forall u, In u (sends ops) -> find_tag u (g_tags d) = None) -> exists x, r = Ok x).
Proof.
  induction ops as [|o l IH]; intros d tr r Id R; cbn [g_run] in R.
  - injection R as <-. repeat split; try discriminate. eauto.
  - pose proof (g_step_fails fits d tr o Id) as F.
    destruct (g_step fits once d o) as [[[d1 e1]| | |]|] eqn:E; try discriminate; try contradiction.
    + pose proof (g_step_inv fits d tr o d1 e1 Id E) as I1.
      destruct (g_run fits once d1 l) as [r1|] eqn:G; [|discriminate].
      destruct (IH d1 (tr ++ e1) r1 I1 G) as (A & B & C).
      assert (X : r = match r1 with Ok (d2, ev2) => Ok (d2, e1 ++ ev2) | x => x end)
        by (destruct r1 as [[? ?]| | |]; congruence). clear R.
      split; [|split].
      * destruct r1 as [[? ?]| | |]; subst; congruence.
      * destruct r1 as [[? ?]| | |]; subst; congruence.
      * intros Nd Fr. assert (Nd' : NoDup (sends l)).
        { destruct o; cbn in Nd; auto. inversion Nd; assumption. }
        destruct (C Nd') as [[d2 e2] ->]; [|subst; eauto].
        intros u Hu. destruct (find_tag u (g_tags d1)) eqn:T; [exfalso|reflexivity].
        destruct (g_step_tagged _ _ _ _ _ _ u E) as [H|[p H]]; [congruence| |].
        -- apply H, Fr. destruct o; cbn; auto.
        -- subst o. cbn in Nd. inversion Nd. contradiction.
    + injection R as <-. repeat split; try discriminate.
      destruct F as (u & p & -> & T). intros _ Fr. exfalso. apply T, Fr. left; reflexivity.
Qed.

(** * Metadata at any number of copies *)
Definition air_tags (tr : list gevent) : list (Z * gtag) :=
  flat_map (fun e => match e with EAir u t => [(u, t)] | _ => [] end) tr.

Definition meta_ok (spec : list (Z * gtag)) (d : gdev) (tr : list gevent) : Prop :=
  (forall e, In e (g_tags d) -> In e spec) /\
  (forall j, In j (g_mac d) -> In (job_uid j, job_tag j) spec) /\
  (forall e, In e (air_tags tr) -> In e spec).

Lemma meta_transmit_start : forall copies spec d d' ev tr, meta_ok spec d tr ->
  g_transmit_start copies d = Ok (d', ev) ->
  meta_ok spec d' (tr ++ ev) /\ g_remote d' = g_remote d /\ g_power d' = g_power d.
Proof.
  intros copies spec d d' ev tr (A & B & C) H. unfold g_transmit_start in H.
  destruct (negb (g_busy d)); cbn in H; try discriminate.
  destruct (g_queue d) as [|u q]; try discriminate. destruct (find_tag u (g_tags d)) as [t|] eqn:T; try discriminate.
  injection H as <- <-. cbn. repeat split; auto; cbn.
  - intros j Hj. apply in_app_or in Hj. destruct Hj as [Hj|Hj]; [auto|].
    apply repeat_spec in Hj. subst j. cbn. apply A. apply find_tag_in. exact T.
  - intros e He. unfold air_tags in He. rewrite flat_map_app in He. cbn in He. rewrite app_nil_r in He. auto.
Qed.

Lemma meta_step : forall fits copies d o d' ev spec tr,
  meta_ok spec d tr -> (forall e, In e (sent_with (g_remote d) (g_power d) [o]) -> In e spec) ->
  g_step fits copies d o = Some (Ok (d', ev)) ->
  meta_ok spec d' (tr ++ ev) /\
  sent_with (g_remote d) (g_power d) [o] ++ sent_with (g_remote d') (g_power d') [] = sent_with (g_remote d) (g_power d) [o] /\
  (forall l, sent_with (g_remote d) (g_power d) (o :: l)
             = sent_with (g_remote d) (g_power d) [o] ++ sent_with (g_remote d') (g_power d') l).
Proof.
  intros fits copies d o d' ev spec tr M Sp St. pose proof M as (A & B & C).
  split; [|split; [apply app_nil_r|]].
  - destruct o as [v proto|a|p|k]; cbn in St.
    + unfold g_send in St. destruct (find_tag v (g_tags d)) eqn:F; [discriminate|].
      assert (A' : forall e, In e ((v, mkTag (g_remote d) (u16 proto) (g_power d)) :: g_tags d) -> In e spec).
      { intros e [<-|He]; [apply Sp; left; reflexivity|auto]. }
      assert (K : forall x, air_tags (tr ++ [x]) = air_tags tr ++ air_tags [x])
        by (intros; apply flat_map_app).
      destruct (fits (g_queue d) v); [destruct (g_busy d)|].
      * injection St as <- <-. repeat split; cbn; auto. rewrite K. cbn. rewrite app_nil_r. auto.
      * destruct (g_transmit_start copies _) as [[d2 e2]| | |] eqn:H in St; cbn in St; try discriminate.
        injection St as <- <-. change (EAccept v :: e2) with ([EAccept v] ++ e2). rewrite app_assoc.
        eapply meta_transmit_start; [|exact H]. repeat split; cbn; auto. rewrite K. cbn. rewrite app_nil_r. auto.
      * injection St as <- <-. repeat split; cbn; auto. rewrite K. cbn. rewrite app_nil_r. auto.
    + injection St as <- <-. rewrite app_nil_r. exact M.
    + injection St as <- <-. rewrite app_nil_r. exact M.
    + unfold g_mac_step in St. destruct (nth_error (g_mac d) k) as [j|] eqn:F; [|discriminate].
      pose proof (nth_error_In _ _ F) as Ij.
      assert (K : forall x, air_tags (tr ++ [x]) = air_tags tr ++ air_tags [x])
        by (intros; apply flat_map_app).
      assert (Rn : forall (A : Type) (l : list A) n x, In x (remove_nth n l) -> In x l).
      { induction l as [|y l IHl]; intros [|n] x H; cbn in *; auto. destruct H; eauto. }
      destruct (job_on_air j); apply some_inj in St.
      * unfold g_transmit_complete in St. cbn [g_queue g_remote g_power g_tags g_mac g_busy] in St.
        assert (M1 : forall b q, meta_ok spec (mkG (g_remote d) (g_power d) b q (remove_tag (job_uid j) (g_tags d))
                        (remove_nth k (g_mac d))) (tr ++ [EDone (job_uid j)])).
        { intros b q. repeat split; cbn.
          - intros e He. apply A. eapply remove_tag_in; eauto.
          - intros x Hx. apply B. eapply Rn; eauto.
          - rewrite K. cbn. rewrite app_nil_r. auto. }
        destruct (g_queue d); [injection St as <- <-; apply M1|].
        destruct (g_transmit_start copies _) as [[d2 e2]| | |] eqn:H in St; cbn in St; try discriminate.
        injection St as <- <-. change (EDone (job_uid j) :: e2) with ([EDone (job_uid j)] ++ e2). rewrite app_assoc.
        eapply meta_transmit_start; [|exact H]. apply M1.
      * injection St as <- <-. repeat split; cbn; auto.
        -- intros x Hx. apply In_nth_error in Hx. destruct Hx as [n Hn].
           destruct (Nat.eq_dec k n) as [->|Ne].
           ++ rewrite set_nth_same in Hn by (apply nth_error_Some; congruence).
              injection Hn as <-. cbn. apply (B j Ij).
           ++ rewrite set_nth_other in Hn by congruence. apply nth_error_In in Hn. auto.
        -- rewrite K. cbn. intros e He. apply in_app_or in He. destruct He as [He|[<-|[]]]; auto.
  - intros l. assert (X : forall x y e, g_transmit_start copies x = Ok (y, e) -> g_remote y = g_remote x /\ g_power y = g_power x).
    { intros x y e H. unfold g_transmit_start in H. destruct (negb (g_busy x)); cbn in H; try discriminate.
      destruct (g_queue x); try discriminate. destruct (find_tag z (g_tags x)); try discriminate.
      injection H as <- <-. split; reflexivity. }
    destruct o as [v proto|a|p|k]; cbn in St |- *.
    + unfold g_send in St. destruct (find_tag v (g_tags d)) eqn:F; [discriminate|].
      destruct (fits (g_queue d) v); [destruct (g_busy d)|]; try (injection St as <- <-; reflexivity).
      destruct (g_transmit_start copies _) as [[d2 e2]| | |] eqn:H in St; cbn in St; try discriminate.
      injection St as <- <-. destruct (X _ _ _ H) as [-> ->]. reflexivity.
    + injection St as <- <-. reflexivity.
    + injection St as <- <-. reflexivity.
    + unfold g_mac_step in St. destruct (nth_error (g_mac d) k) as [j|] eqn:F; [|discriminate].
      destruct (job_on_air j); apply some_inj in St; [|injection St as <- <-; reflexivity].
      unfold g_transmit_complete in St. cbn [g_queue g_remote g_power g_tags g_mac g_busy] in St. destruct (g_queue d); [injection St as <- <-; reflexivity|].
      destruct (g_transmit_start copies _) as [[d2 e2]| | |] eqn:H in St; cbn in St; try discriminate.
      injection St as <- <-. destruct (X _ _ _ H) as [-> ->]. reflexivity.
Qed.

Lemma meta_run : forall fits copies ops d tr d' ev spec,
  meta_ok spec d tr -> (forall e, In e (sent_with (g_remote d) (g_power d) ops) -> In e spec) ->
  g_run fits copies d ops = Some (Ok (d', ev)) -> meta_ok spec d' (tr ++ ev).
Proof.
  induction ops as [|o l IH]; intros d tr d' ev spec M Sp R; cbn [g_run] in R.
  - injection R as <- <-. rewrite app_nil_r. exact M.
  - destruct (g_step fits copies d o) as [[[d1 e1]| | |]|] eqn:E; try discriminate.
    destruct (g_run fits copies d1 l) as [[[d2 e2]| | |]|] eqn:F; try discriminate.
    injection R as <- <-.
    destruct (meta_step fits copies d o d1 e1 spec tr M) as (M1 & _ & Sl); auto.
    { intros e He. apply Sp. destruct o; cbn in *; try tauto. }
    rewrite app_assoc. eapply IH; [exact M1| |exact F].
    intros e He. apply Sp. rewrite Sl. apply in_or_app. right. exact He.
Qed.

Lemma sent_with_uids : forall ops a p, map fst (sent_with a p ops) = sends ops.
Proof. induction ops as [|[u q|b|q|k] l IH]; intros; cbn; rewrite ?IH; reflexivity. Qed.

(** * Refused packets keep their tag *)
Definition refused (tr : list gevent) (u : Z) : Prop := In (ERefuse u) tr.

Lemma refused_step : forall fits d tr o d' ev, g_inv d tr ->
  (forall u, refused tr u -> find_tag u (g_tags d) <> None /\ ~ In u (map job_uid (g_mac d) ++ g_queue d)) ->
  g_step fits once d o = Some (Ok (d', ev)) ->
  forall u, refused (tr ++ ev) u -> find_tag u (g_tags d') <> None /\ ~ In u (map job_uid (g_mac d') ++ g_queue d').
Proof.
  intros fits d tr o d' ev I Rf St u Ru. destruct I as [Fi Ph So Id Tg Nd]. unfold refused in *.
  destruct (g_phase_cases d So) as [[B M]|[B [j M]]]; destruct d as [ra pw bs q tg mac]; cbn in *; subst.
  - rewrite (Id eq_refl) in *. destruct o as [v proto|a|p|k]; cbn in St.
    + unfold g_send in St. cbn in St. destruct (find_tag v tg) eqn:T; [discriminate|].
      destruct (fits [] v); cbn in St.
      * unfold g_transmit_start in St. cbn in St. rewrite find_tag_cons, Z.eqb_refl in St. cbn in St.
        injection St as <- <-. cbn. apply in_app_or in Ru. destruct Ru as [Ru|[Ru|[Ru|[]]]]; try discriminate.
        destruct (Rf u Ru) as [X Y]. rewrite find_tag_cons. destruct (v =? u) eqn:E.
        -- apply Z.eqb_eq in E. subst. contradiction.
        -- apply Z.eqb_neq in E. split; [exact X|]. intros [?|[]]; contradiction.
      * injection St as <- <-. cbn. split; [|tauto]. rewrite find_tag_cons.
        apply in_app_or in Ru. destruct Ru as [Ru|[Ru|[]]].
        -- destruct (Rf u Ru) as [X Y]. destruct (v =? u); [discriminate|exact X].
        -- injection Ru as ->. rewrite Z.eqb_refl. discriminate.
    + injection St as <- <-. rewrite app_nil_r in Ru. apply Rf; exact Ru.
    + injection St as <- <-. rewrite app_nil_r in Ru. apply Rf; exact Ru.
    + unfold g_mac_step in St. cbn in St. destruct k; discriminate.
  - destruct o as [v proto|a|p|k]; cbn in St.
    + unfold g_send in St. cbn in St. destruct (find_tag v tg) eqn:T; [discriminate|].
      destruct (fits q v); cbn in St; injection St as <- <-; cbn; rewrite find_tag_cons;
        apply in_app_or in Ru; destruct Ru as [Ru|[Ru|[]]]; try discriminate;
        try (injection Ru as ->; rewrite Z.eqb_refl; split; [discriminate|]; intros H; apply (Tg u H T));
        destruct (Rf u Ru) as [X Y]; destruct (v =? u) eqn:E;
        try (apply Z.eqb_eq in E; subst; contradiction); split; auto.
      apply Z.eqb_neq in E. intros [H|H]; [apply Y; left; exact H|].
      apply in_app_or in H. destruct H as [H|[H|[]]]; [apply Y; right; exact H|contradiction].
    + injection St as <- <-. rewrite app_nil_r in Ru. apply Rf; exact Ru.
    + injection St as <- <-. rewrite app_nil_r in Ru. apply Rf; exact Ru.
    + unfold g_mac_step in St. cbn in St. destruct k as [|[|k]]; cbn in St; try discriminate.
      destruct j as [v t oa]. cbn in *. destruct oa; apply some_inj in St.
      * unfold g_transmit_complete in St. cbn in St. destruct q as [|w q].
        -- injection St as <- <-. cbn. apply in_app_or in Ru. destruct Ru as [Ru|[Ru|[]]]; try discriminate.
           destruct (Rf u Ru) as [X Y]. split; [|cbn in Y |- *; tauto]. rewrite find_remove_other; [exact X|].
           intros ->. apply Y. left; reflexivity.
        -- unfold g_transmit_start in St. cbn in St.
           assert (Nvw : w <> v). { inversion Nd. cbn in H1. intuition. }
           rewrite find_remove_other in St by exact Nvw.
           destruct (find_tag w tg) as [t'|] eqn:T; [|discriminate].
           cbn in St. injection St as <- <-. cbn. apply in_app_or in Ru. destruct Ru as [Ru|[Ru|[Ru|[]]]]; try discriminate.
           destruct (Rf u Ru) as [X Y]. split; [|cbn in Y |- *; tauto]. rewrite find_remove_other; [exact X|].
           intros ->. apply Y. left; reflexivity.
      * injection St as <- <-. cbn. apply in_app_or in Ru. destruct Ru as [Ru|[Ru|[]]]; try discriminate.
        apply Rf; exact Ru.
Qed.

(** * The queue drains when the MAC works *)
Lemma g_drain : forall fits n d tr, List.length (g_queue d) = n -> g_inv d tr ->
  exists k d' ev, g_run fits once d (repeat (GMac 0) k) = Some (Ok (d', ev)) /\ g_busy d' = false.
Proof.
  intros fits.
  assert (X : forall d tr, g_inv d tr -> g_phase d <> Some PIdle -> g_busy d = true /\ exists j, g_mac d = [j]).
  { intros d tr I N. destruct (g_phase_cases d (gi_some _ _ I)) as [[B M]|H]; [|exact H].
    unfold g_phase in N. rewrite B, M in N. congruence. }
  assert (Z : forall d tr v t q, g_inv d tr -> g_busy d = true -> g_mac d = [mkJob v t true] -> g_queue d = q ->
    match q with
    | [] => exists d' ev, g_step fits once d (GMac 0) = Some (Ok (d', ev)) /\ g_busy d' = false
    | w :: q' => exists d' ev t', g_step fits once d (GMac 0) = Some (Ok (d', ev)) /\ g_busy d' = true
        /\ g_mac d' = [mkJob w t' false] /\ g_queue d' = q'
    end).
  { intros d tr v t q I B M Q. pose proof (g_step_fails fits d tr (GMac 0) I) as F.
    cbn [g_step] in *. unfold g_mac_step in *. rewrite M in *. cbn in *. unfold g_transmit_complete in *. cbn in *.
    rewrite Q in *. destruct q as [|w q']; [do 2 eexists; split; reflexivity|].
    unfold g_transmit_start in *. cbn in *.
    destruct (find_tag w (remove_tag v (g_tags d))) as [t'|]; [|contradiction]. cbn.
    do 2 eexists; exists t'; split; [reflexivity|]. cbn. auto. }
  assert (Y : forall n d tr v t, List.length (g_queue d) = n -> g_inv d tr -> g_busy d = true ->
    g_mac d = [mkJob v t true] ->
    exists k d' ev, g_run fits once d (repeat (GMac 0) k) = Some (Ok (d', ev)) /\ g_busy d' = false).
  { induction n as [|n IH]; intros d tr v t L I B M; specialize (Z d tr v t (g_queue d) I B M eq_refl);
      destruct (g_queue d) as [|w q]; try discriminate.
    - destruct Z as (d' & ev & St & Bz). exists 1%nat, d', (ev ++ []). cbn [repeat g_run]. rewrite St. auto.
    - destruct Z as (d1 & ev1 & t' & St & Bz & Mz & Qz).
      assert (I1 : g_inv d1 (tr ++ ev1)) by (eapply g_step_inv; eauto).
      assert (St2 : g_step fits once d1 (GMac 0) = Some (Ok (mkG (g_remote d1) (g_power d1) (g_busy d1) (g_queue d1)
        (g_tags d1) [mkJob w t' true], [EAir w t']))).
      { cbn [g_step]. unfold g_mac_step. rewrite Mz. reflexivity. }
      set (d2 := mkG _ _ _ _ _ _) in St2.
      assert (I2 : g_inv d2 ((tr ++ ev1) ++ [EAir w t'])) by (eapply g_step_inv; eauto).
      destruct (IH d2 ((tr ++ ev1) ++ [EAir w t']) w t') as (k & d' & ev & R & F).
      { subst d2. cbn. rewrite Qz. cbn in L. lia. } { exact I2. } { exact Bz. } { reflexivity. }
      exists (S (S k)), d', (ev1 ++ [EAir w t'] ++ ev). split; [|exact F].
      cbn [repeat]. cbn [g_run]. rewrite St, St2, R. reflexivity. }
  intros n d tr L I. destruct (g_phase d) as [[|u|u]|] eqn:P.
  - exists 0%nat, d, []. split; [reflexivity|]. unfold g_phase in P. destruct (g_busy d); [|reflexivity].
    destruct (g_mac d) as [|j [|]]; try discriminate. destruct (job_on_air j); discriminate.
  - destruct (X d tr I) as [B [j M]]; [congruence|]. unfold g_phase in P. rewrite B, M in P.
    destruct j as [v t [|]]; cbn in P; [discriminate|].
    assert (St2 : g_step fits once d (GMac 0) = Some (Ok (mkG (g_remote d) (g_power d) (g_busy d) (g_queue d)
        (g_tags d) [mkJob v t true], [EAir v t]))).
    { cbn [g_step]. unfold g_mac_step. rewrite M. reflexivity. }
    set (d2 := mkG _ _ _ _ _ _) in St2.
    assert (I2 : g_inv d2 (tr ++ [EAir v t])) by (eapply g_step_inv; eauto).
    destruct (Y n d2 (tr ++ [EAir v t]) v t) as (k & d' & ev & R & F); auto.
    exists (S k), d', ([EAir v t] ++ ev). split; [|exact F]. cbn [repeat g_run]. rewrite St2, R. reflexivity.
  - destruct (X d tr I) as [B [j M]]; [congruence|]. unfold g_phase in P. rewrite B, M in P.
    destruct j as [v t [|]]; cbn in P; [|discriminate]. exact (Y n d tr v t L I B M).
  - exfalso. apply (gi_some _ _ I). exact P.
Qed.

(** * Devices that serve a queue in order *)
Section Serial.
Variable dur : Z -> Z.
Hypothesis dur_pos : forall u, 0 <= dur u.

Fixpoint plan (e : Z) (q : list Z) : list (Z * Z) :=
  match q with [] => [] | u :: l => (e, u) :: plan (e + dur u) l end.
Fixpoint finish (free : Z) (reqs : list (Z * Z)) : Z :=
  match reqs with [] => free | (t, u) :: l => finish (Z.max free t + dur u) l end.
Definition plan_end (e : Z) (q : list Z) : Z := e + busy_time dur q.

Lemma in_turn_app : forall r1 r2 f, in_turn dur f (r1 ++ r2) = in_turn dur f r1 ++ in_turn dur (finish f r1) r2.
Proof. induction r1 as [|[t u] l IH]; intros; cbn; [reflexivity|]. rewrite IH. reflexivity. Qed.
Lemma finish_app : forall r1 r2 f, finish f (r1 ++ r2) = finish (finish f r1) r2.
Proof. induction r1 as [|[t u] l IH]; intros; cbn; [reflexivity|]. rewrite IH. reflexivity. Qed.
Lemma plan_app : forall q r e, plan e (q ++ r) = plan e q ++ plan (plan_end e q) r.
Proof.
  unfold plan_end, busy_time. induction q as [|u q IH]; intros; cbn; [f_equal; lia|].
  rewrite IH. do 3 f_equal. lia.
Qed.
Lemma busy_time_app : forall a b, busy_time dur (a ++ b) = busy_time dur a + busy_time dur b.
Proof. unfold busy_time. induction a; intros; cbn; [reflexivity|]. rewrite IHa. lia. Qed.
Lemma busy_time_pos : forall a, 0 <= busy_time dur a.
Proof. unfold busy_time. induction a; cbn; [lia|]. pose proof (dur_pos a). lia. Qed.
Lemma plan_ge : forall q e x, In x (plan e q) -> e <= fst x.
Proof.
  induction q as [|u q IH]; intros e x; cbn; [tauto|]. intros [<-|H]; cbn; [lia|].
  apply IH in H. pose proof (dur_pos u). lia.
Qed.
Lemma plan_uids : forall q e, map snd (plan e q) = q.
Proof. induction q; intros; cbn; [reflexivity|]. rewrite IHq. reflexivity. Qed.

Definition on_time (d : sdev) (t : Z) : bool := (s_now d <=? t) && forallb (fun c => t <=? c_end c) (s_pending d).

Inductive serial (d : sdev) : list sevent -> sdev -> Prop :=
| ser_refuse t u tags : on_time d t = true ->
    serial d [SRefuse u] (mkS t (s_busy d) (s_queue d) tags (s_pending d))
| ser_wait t u p tags : on_time d t = true -> s_busy d = true ->
    serial d [SAccept t u p] (mkS t true (s_queue d ++ [u]) tags (s_pending d))
| ser_go t u p p' tags : on_time d t = true -> s_busy d = false ->
    serial d [SAccept t u p; SAir (mkAir u t p')] (mkS t true [] tags [mkDone (t + dur u) u p'])
| ser_rest c tags : s_pending d = [c] -> s_queue d = [] -> serial d [] (mkS (c_end c) false [] tags [])
| ser_next c u q p' tags : s_pending d = [c] -> s_queue d = u :: q ->
    serial d [SAir (mkAir u (c_end c) p')] (mkS (c_end c) true q tags [mkDone (c_end c + dur u) u p']).

Definition in_order (l : list (Z * Z)) : Prop := forall i a, nth_error l i = Some a -> Forall (fun e => fst e <= fst a) (firstn i l).

Lemma in_order_snoc : forall l t u, in_order l -> Forall (fun e => fst e <= t) l -> in_order (l ++ [(t, u)]).
Proof.
  intros l t u O F i a H. assert (L : (i < List.length (l ++ [(t, u)]))%nat) by (apply nth_error_Some; congruence).
  rewrite app_length in L. cbn in L. rewrite firstn_app. apply Forall_app.
  destruct (lt_dec i (List.length l)) as [Li|Li].
  - rewrite nth_error_app1 in H by exact Li. split; [apply O; exact H|].
    replace (i - List.length l)%nat with 0%nat by lia. constructor.
  - assert (i = List.length l) as -> by lia. rewrite nth_error_app2 in H by lia. rewrite Nat.sub_diag in *. cbn in H.
    injection H as <-. cbn. split; [|constructor]. rewrite firstn_all. exact F.
Qed.

Record t_inv (d : sdev) (tr : list sevent) : Prop := mkTInv {
  ti_now : 0 <= s_now d;
  ti_shape : (s_busy d = false /\ s_pending d = [] /\ s_queue d = [] /\ finish 0 (requests tr) <= s_now d
              /\ starts (airings tr) = in_turn dur 0 (requests tr))
    \/ (exists c l, s_busy d = true /\ s_pending d = [c] /\ s_now d <= c_end c
         /\ starts (airings tr) = l ++ [(c_end c - dur (c_uid c), c_uid c)]
         /\ in_turn dur 0 (requests tr) = starts (airings tr) ++ plan (c_end c) (s_queue d)
         /\ finish 0 (requests tr) = plan_end (c_end c) (s_queue d));
  ti_begun : Forall (fun e => fst e <= s_now d) (starts (airings tr));
  ti_past : Forall (fun e => fst e <= s_now d) (requests tr);
  ti_order : in_order (requests tr) }.

Lemma requests_app : forall a b, requests (a ++ b) = requests a ++ requests b.
Proof. intros; apply flat_map_app. Qed.
Lemma airings_app : forall a b, airings (a ++ b) = airings a ++ airings b.
Proof. intros; apply flat_map_app. Qed.
Lemma starts_app : forall a b, starts (a ++ b) = starts a ++ starts b.
Proof. intros; apply map_app. Qed.

Lemma t_inv_init : t_inv s_init [].
Proof. constructor; cbn; [lia| |constructor|constructor|]. { left. repeat split; lia. } intros [|i] a; discriminate. Qed.

Lemma later : forall (t t' : Z) (l : list (Z * Z)), Forall (fun e => fst e <= t) l -> t <= t' -> Forall (fun e => fst e <= t') l.
Proof. intros t t' l H L. eapply Forall_impl; [|exact H]. cbn. intros; lia. Qed.

Ltac trace_cbn :=
  rewrite ?requests_app, ?airings_app;
  repeat match goal with
  | |- context [requests (?e :: ?l)] => let x := eval cbn in (requests (e :: l)) in change (requests (e :: l)) with x
  | |- context [airings (?e :: ?l)] => let x := eval cbn in (airings (e :: l)) in change (airings (e :: l)) with x
  | |- context [airings []] => change (airings []) with (@nil airing)
  | |- context [requests []] => change (requests []) with (@nil (Z * Z))
  end; rewrite ?app_nil_r.

Lemma serial_inv : forall d tr ev d', t_inv d tr -> serial d ev d' -> t_inv d' (tr ++ ev).
Proof.
  intros d tr ev d' [Nw Sh Bg Ps Od] Sr.
  destruct Sr as [t u tags T|t u p tags T B|t u p p' tags T B|c tags P Q|c u q p' tags P Q];
    try (unfold on_time in T; apply andb_true_iff in T; destruct T as [T1 T2]; apply Z.leb_le in T1;
         rewrite forallb_forall in T2).
  - (* refused *)
    constructor; cbn [s_now s_busy s_queue s_pending]; trace_cbn; [lia| |exact (later _ _ _ Bg T1)|exact (later _ _ _ Ps T1)|exact Od].
    destruct Sh as [(B & P & Q & F & E)|(c & l & B & P & N & L & E & F)].
    + left. repeat split; auto. lia.
    + right. exists c, l. repeat split; auto. rewrite P in T2. specialize (T2 c (or_introl eq_refl)). lia.
  - (* queued *)
    constructor; cbn [s_now s_busy s_queue s_pending]; trace_cbn; [lia| |exact (later _ _ _ Bg T1)|apply Forall_app; split; [exact (later _ _ _ Ps T1)|repeat constructor; cbn; lia]|apply in_order_snoc; [exact Od|exact (later _ _ _ Ps T1)]].
    destruct Sh as [(B' & _)|(c & l & _ & P & N & L & E & F)]; [congruence|]. right. exists c, l.
    rewrite P in T2. specialize (T2 c (or_introl eq_refl)). apply Z.leb_le in T2.
    assert (M : Z.max (finish 0 (requests tr)) t = plan_end (c_end c) (s_queue d)).
    { rewrite F. unfold plan_end. pose proof (busy_time_pos (s_queue d)). lia. }
    repeat split; auto.
    + rewrite in_turn_app, E, plan_app, <- app_assoc. cbn [in_turn app plan]. rewrite M. reflexivity.
    + rewrite finish_app. cbn [finish]. rewrite M. unfold plan_end. rewrite busy_time_app. unfold busy_time at 3. cbn. lia.
  - (* starts at once *)
    destruct Sh as [(_ & P & Q & F & E)|(c & l & B' & _)]; [|congruence].
    constructor; cbn [s_now s_busy s_queue s_pending]; trace_cbn; [lia| | |apply Forall_app; split; [exact (later _ _ _ Ps T1)|repeat constructor; cbn; lia]|apply in_order_snoc; [exact Od|exact (later _ _ _ Ps T1)]].
    + right. exists (mkDone (t + dur u) u p'), (starts (airings tr)). cbn [c_end c_uid].
      assert (M : Z.max (finish 0 (requests tr)) t = t) by lia.
      repeat split; auto.
      * pose proof (dur_pos u). lia.
      * rewrite starts_app. cbn. do 3 f_equal. lia.
      * rewrite in_turn_app, <- E, starts_app. cbn [in_turn plan starts map app a_start a_uid]. rewrite M, app_nil_r. reflexivity.
      * rewrite finish_app. cbn [finish]. rewrite M. unfold plan_end, busy_time. cbn. lia.
    + rewrite starts_app. apply Forall_app. split; [exact (later _ _ _ Bg T1)|]. repeat constructor. cbn. lia.
  - (* rests *)
    destruct Sh as [(_ & P' & _)|(c' & l & B & P' & N & L & E & F)]; rewrite P in P'; [discriminate|].
    injection P' as <-. constructor; cbn [s_now s_busy s_queue s_pending]; rewrite ?app_nil_r; [lia| |exact (later _ _ _ Bg N)|exact (later _ _ _ Ps N)|exact Od].
    left. rewrite Q in *. unfold plan_end, busy_time in F. cbn in F, E. rewrite app_nil_r in E.
    repeat split; auto; lia.
  - (* goes on *)
    destruct Sh as [(_ & P' & _)|(c' & l & B & P' & N & L & E & F)]; rewrite P in P'; [discriminate|].
    injection P' as <-. rewrite Q in *.
    constructor; cbn [s_now s_busy s_queue s_pending]; trace_cbn; [lia| | |exact (later _ _ _ Ps N)|exact Od].
    + right. exists (mkDone (c_end c + dur u) u p'), (starts (airings tr)). cbn [c_end c_uid].
      repeat split; auto.
      * pose proof (dur_pos u). lia.
      * rewrite starts_app. cbn. do 3 f_equal. lia.
      * rewrite E, starts_app, <- app_assoc. reflexivity.
      * rewrite F. unfold plan_end, busy_time. cbn. lia.
    + rewrite starts_app. apply Forall_app. split; [exact (later _ _ _ Bg N)|]. repeat constructor. cbn. lia.
Qed.

Lemma s_run_inv : forall step (I : sdev -> list sevent -> Prop),
  (forall d tr o d' ev, I d tr -> step d o = Some (Ok (d', ev)) -> I d' (tr ++ ev)) ->
  forall ops d tr d' ev, I d tr -> s_run step d ops = Some (Ok (d', ev)) -> I d' (tr ++ ev).
Proof.
  intros step I St. induction ops as [|o l IH]; intros d tr d' ev Id R; cbn [s_run] in R.
  - injection R as <- <-. rewrite app_nil_r. exact Id.
  - destruct (step d o) as [[[d1 e1]| | |]|] eqn:E; try discriminate.
    destruct (s_run step d1 l) as [[[d2 e2]| | |]|] eqn:F; try discriminate.
    injection R as <- <-. rewrite app_assoc. eapply IH; [|exact F]. eapply St; eauto.
Qed.

(** ** The schedule itself *)
Lemma in_turn_uids : forall r f, map snd (in_turn dur f r) = map snd r.
Proof. induction r as [|[t u] l IH]; intros; cbn; [reflexivity|]. rewrite IH. reflexivity. Qed.

Lemma in_turn_after : forall r f e, In e (in_turn dur f r) -> f <= fst e.
Proof.
  induction r as [|[t u] l IH]; intros f e; cbn; [tauto|]. intros [<-|H]; cbn; [lia|].
  apply IH in H. pose proof (dur_pos u). lia.
Qed.

Lemma in_turn_disjoint : forall r f i j a b, (i < j)%nat ->
  nth_error (in_turn dur f r) i = Some a -> nth_error (in_turn dur f r) j = Some b ->
  fst a + dur (snd a) <= fst b.
Proof.
  induction r as [|[t u] l IH]; intros f i j a b L A B; cbn in A, B.
  - destruct i; discriminate.
  - destruct j as [|j]; [lia|]. destruct i as [|i]; cbn in A, B.
    + injection A as <-. cbn. apply nth_error_In in B. apply in_turn_after in B. lia.
    + eapply IH; [|exact A|exact B]. lia.
Qed.

Lemma in_turn_wait : forall r f i a t u,
  nth_error (in_turn dur f r) i = Some a -> nth_error r i = Some (t, u) ->
  Forall (fun e => fst e <= t) (firstn i r) ->
  snd a = u /\ t <= fst a <= Z.max f t + busy_time dur (map snd (firstn i r)).
Proof.
  induction r as [|[t0 u0] l IH]; intros f i a t u A B Le; [destruct i; discriminate|].
  destruct i as [|i]; cbn [nth_error in_turn] in A, B.
  - injection A as <-. injection B as <- <-. cbn. unfold busy_time. cbn. lia.
  - cbn [firstn] in Le. inversion Le as [|x y Lx Ly E]. subst. cbn in Lx.
    destruct (IH _ _ _ _ _ A B Ly) as (X & Y). split; [exact X|].
    cbn [firstn map snd]. unfold busy_time in *. cbn [map fold_right]. pose proof (dur_pos u0). lia.
Qed.
(** ** Downlink *)
Variable fits : list Z -> Z -> bool.

(** Protocols asked for, in order of acceptance. *)
Definition asked (tr : list sevent) : list (Z * Z) :=
  flat_map (fun e => match e with SAccept _ u p => [(u, u16 p)] | _ => [] end) tr.
Definition frames (l : list airing) : list (Z * Z) := map (fun a => (a_uid a, a_proto a)) l.

Record d_inv (d : sdev) (tr : list sevent) : Prop := mkDInv {
  di_t : t_inv d tr;
  di_tags : forall u, In u (map c_uid (s_pending d) ++ s_queue d) -> find_tag u (s_tags d) <> None;
  di_nodup : NoDup (map c_uid (s_pending d) ++ s_queue d);
  di_asked : map (fun e => (fst e, Some (snd e))) (asked tr)
    = map (fun e => (fst e, Some (snd e))) (frames (airings tr)) ++ map (fun u => (u, find_tag u (s_tags d))) (s_queue d) }.

Lemma t_shape : forall d tr, t_inv d tr ->
  (s_busy d = false /\ s_pending d = [] /\ s_queue d = []) \/ (s_busy d = true /\ exists c, s_pending d = [c]).
Proof. intros d tr [_ [(A & B & C & _)|(c & l & A & B & _)] _ _ _]; eauto. Qed.

Lemma asked_app : forall a b, asked (a ++ b) = asked a ++ asked b.
Proof. intros; apply flat_map_app. Qed.

Lemma d_step : forall d tr o, d_inv d tr ->
  match s_step fits dur d o with
  | Some (Ok (d', ev)) => d_inv d' (tr ++ ev)
  | Some Assert => exists t u p, o = SSend t u p /\ find_tag u (s_tags d) <> None
  | Some _ => False
  | None => True
  end.
Proof.
  intros d tr o [Ti Tg Nd As]. pose proof (t_shape d tr Ti) as Sh.
  destruct o as [t u p|]; cbn [s_step].
  - change ((s_now d <=? t) && forallb (fun c => t <=? c_end c) (s_pending d)) with (on_time d t).
    destruct (on_time d t) eqn:T; [|exact Logic.I].
    unfold s_send. destruct (find_tag u (s_tags d)) eqn:Fu; [exists t, u, p; split; congruence|].
    assert (Keep : forall q, ~ In u q -> map (fun v => (v, find_tag v ((u, u16 p) :: s_tags d))) q
                   = map (fun v => (v, find_tag v (s_tags d))) q).
    { intros q N. apply map_ext_in. intros v Hv. rewrite find_tag_cons. destruct (u =? v) eqn:E; [|reflexivity].
      apply Z.eqb_eq in E. subst. contradiction. }
    assert (Nu : ~ In u (map c_uid (s_pending d) ++ s_queue d)). { intros H. exact (Tg u H Fu). }
    assert (Nq : ~ In u (s_queue d)). { intros H. apply Nu, in_or_app. right; exact H. }
    assert (Tg' : forall v, In v (map c_uid (s_pending d) ++ s_queue d) -> find_tag v ((u, u16 p) :: s_tags d) <> None).
    { intros v Hv. rewrite find_tag_cons. destruct (u =? v); [discriminate|]. apply Tg; exact Hv. }
    destruct (fits (s_queue d) u) eqn:Fi; [destruct (s_busy d) eqn:B|].
    + constructor; cbn [s_pending s_queue s_tags].
      * apply (serial_inv d tr). { exact Ti. } apply ser_wait; assumption.
      * intros v Hv. rewrite app_assoc in Hv. apply in_app_or in Hv. destruct Hv as [Hv|[<-|[]]]; [apply Tg'; exact Hv|].
        rewrite find_tag_cons, Z.eqb_refl. discriminate.
      * rewrite app_assoc. apply (Permutation_NoDup (l := u :: (map c_uid (s_pending d) ++ s_queue d))).
        { apply Permutation_cons_append. } constructor; assumption.
      * rewrite asked_app, airings_app, !map_app, As, Keep by exact Nq. cbn. rewrite app_nil_r, find_tag_cons, Z.eqb_refl, app_assoc. reflexivity.
    + destruct Sh as [(_ & P & Q)|[B' _]]; [|congruence].
      unfold s_transmit_start. rewrite Q, P in *. cbn [s_busy s_queue s_tags app assert_ rbind].
      rewrite find_tag_cons, Z.eqb_refl. cbn [rbind s_now s_pending due app].
      constructor; cbn [s_pending s_queue s_tags].
      * apply (serial_inv d tr). { exact Ti. } apply ser_go; assumption.
      * cbn. intros v [<-|[]]. rewrite find_tag_cons, Z.eqb_refl. discriminate.
      * cbn. constructor; [tauto|constructor].
      * rewrite asked_app, airings_app. unfold frames. rewrite !map_app, As. cbn. rewrite !app_nil_r. reflexivity.
    + constructor; cbn [s_pending s_queue s_tags].
      * apply (serial_inv d tr). { exact Ti. } apply ser_refuse; assumption.
      * exact Tg'.
      * exact Nd.
      * rewrite asked_app, airings_app, !map_app, As, Keep by exact Nq. cbn. rewrite !app_nil_r. reflexivity.
  - destruct Sh as [(B & P & Q)|[B [c P]]]; rewrite P in *; [exact Logic.I|].
    cbn in Tg, Nd. unfold s_complete. destruct (s_queue d) as [|w q] eqn:Q.
    + constructor; cbn [s_pending s_queue s_tags].
      * apply (serial_inv d tr). { exact Ti. } apply ser_rest; assumption.
      * cbn. tauto.
      * constructor.
      * rewrite app_nil_r. cbn in As |- *. exact As.
    + unfold s_transmit_start. cbn [s_busy s_queue s_tags]. rewrite B. cbn [assert_ rbind].
      assert (Nvw : w <> c_uid c). { inversion Nd. cbn in H1. intuition. }
      rewrite find_remove_other by exact Nvw.
      destruct (find_tag w (s_tags d)) as [p'|] eqn:T; [|exfalso; apply (Tg w); auto; right; left; reflexivity].
      cbn [s_now s_pending due].
      constructor; cbn [s_pending s_queue s_tags].
      * apply (serial_inv d tr). { exact Ti. } apply ser_next; assumption.
      * cbn. intros v Hv. inversion Nd. rewrite find_remove_other; [apply Tg; right; exact Hv|]. intros ->. auto.
      * cbn. inversion Nd. assumption.
      * rewrite asked_app, airings_app. unfold frames. rewrite !map_app. cbn [asked airings flat_map].
        rewrite !app_nil_r, As. cbn. rewrite T, <- app_assoc. cbn. do 2 f_equal.
        apply map_ext_in. intros v Hv. inversion Nd. rewrite find_remove_other; [reflexivity|]. intros ->. apply H1; right; exact Hv.
Qed.

Lemma d_init : d_inv s_init [].
Proof. constructor; cbn; [apply t_inv_init|tauto|constructor|reflexivity]. Qed.

(** ** Inter-satellite *)
Lemma i_step_inv : forall d tr o, t_inv d tr ->
  match i_step fits dur d o with
  | Some (Ok (d', ev)) => serial d ev d'
  | Some _ => False
  | None => True
  end.
Proof.
  intros d tr o Ti. pose proof (t_shape d tr Ti) as Sh.
  destruct o as [t u p|]; cbn [i_step].
  - change ((s_now d <=? t) && forallb (fun c => t <=? c_end c) (s_pending d)) with (on_time d t).
    destruct (on_time d t) eqn:T; [|exact Logic.I].
    unfold i_send. destruct (fits (s_queue d) u) eqn:Fi; [destruct (s_busy d) eqn:B|].
    + apply ser_wait; assumption.
    + destruct Sh as [(_ & P & Q)|[B' _]]; [|congruence]. rewrite Q, P. cbn. apply ser_go; assumption.
    + apply ser_refuse; assumption.
  - destruct Sh as [(B & P & Q)|[B [c P]]]; rewrite P; [exact Logic.I|].
    unfold i_complete. destruct (s_queue d) as [|w q] eqn:Q.
    + apply ser_rest; assumption.
    + cbn. apply ser_next; assumption.
Qed.

Lemma i_run_ok : forall ops d tr r, t_inv d tr -> s_run (i_step fits dur) d ops = Some r ->
  exists d' ev, r = Ok (d', ev) /\ t_inv d' (tr ++ ev).
Proof.
  induction ops as [|o l IH]; intros d tr r Ti R; cbn [s_run] in R.
  - injection R as <-. exists d, []. rewrite app_nil_r. auto.
  - pose proof (i_step_inv d tr o Ti) as S. destruct (i_step fits dur d o) as [[[d1 e1]| | |]|]; try discriminate; try contradiction.
    pose proof (serial_inv d tr e1 d1 Ti S) as T1.
    destruct (s_run (i_step fits dur) d1 l) as [r1|] eqn:F; [|discriminate].
    destruct (IH d1 (tr ++ e1) r1 T1 F) as (d2 & e2 & -> & T2). injection R as <-.
    exists d2, (e1 ++ e2). rewrite app_assoc. auto.
Qed.

Lemma d_run_ok : forall ops d tr r, d_inv d tr -> s_run (s_step fits dur) d ops = Some r ->
  r <> UB /\ r <> Abort /\ (forall d' ev, r = Ok (d', ev) -> d_inv d' (tr ++ ev)).
Proof.
  induction ops as [|o l IH]; intros d tr r Ti R; cbn [s_run] in R.
  - injection R as <-. split; [discriminate|split; [discriminate|]]. intros d' ev [= <- <-]. rewrite app_nil_r. exact Ti.
  - pose proof (d_step d tr o Ti) as S. destruct (s_step fits dur d o) as [[[d1 e1]| | |]|]; try discriminate; try contradiction.
    + destruct (s_run (s_step fits dur) d1 l) as [r1|] eqn:F; [|discriminate].
      destruct (IH d1 (tr ++ e1) r1 S F) as (A & B & C).
      destruct r1 as [[d2 e2]| | |]; injection R as <-; (split; [congruence|split; [congruence|]]); try discriminate.
      intros d' ev [= <- <-]. rewrite app_assoc. apply C. reflexivity.
    + injection R as <-. repeat split; discriminate.
Qed.

End Serial.

(** * Addresses *)
Lemma wf_neqb : forall h a b, wf_sat h a -> wf_sat h b -> sat_neqb h a b = if sat_dec a b then false else true.
Proof.
  intros h a b (c & p & i & C & P & I & ->) (c' & p' & i' & C' & P' & I' & ->).
  unfold sat_neqb. pose proof (sat_eqb_make h c p i c' p' i' C P I C' P' I') as E.
  destruct (sat_dec _ _) as [H|H]; destruct (sat_eqb h _ _) eqn:F; auto.
  - exfalso. rewrite <- H in F.
    rewrite (proj2 (sat_eqb_make h c p i c p i C P I C P I)) in F; [discriminate|auto].
  - exfalso. apply H. destruct (proj1 E eq_refl) as (-> & -> & ->). reflexivity.
Qed.

(** * Receiving *)
Lemma hear_due_perm : forall c l, Permutation (hear_due c l) (c :: l).
Proof.
  induction l as [|x t IH]; cbn; [reflexivity|]. destruct (h_end x <=? h_end c); [|reflexivity].
  rewrite IH. apply perm_swap.
Qed.

Definition by_end (l : list hearing) : Prop := forall i j x y, (i < j)%nat ->
  nth_error l i = Some x -> nth_error l j = Some y -> h_end x <= h_end y.

Lemma by_end_tail : forall x l, by_end (x :: l) -> by_end l /\ Forall (fun y => h_end x <= h_end y) l.
Proof.
  intros x l H. split.
  - intros i j a b L A B. apply (H (S i) (S j)); [lia|exact A|exact B].
  - apply Forall_forall. intros y Hy. apply In_nth_error in Hy. destruct Hy as [n Hn].
    apply (H 0%nat (S n)); [lia|reflexivity|exact Hn].
Qed.
Lemma by_end_cons : forall x l, by_end l -> Forall (fun y => h_end x <= h_end y) l -> by_end (x :: l).
Proof.
  intros x l B F [|i] [|j] a b L A C; try lia; cbn in *.
  - injection A as <-. rewrite Forall_forall in F. apply F. eapply nth_error_In; eauto.
  - eapply B; [|exact A|exact C]. lia.
Qed.
Lemma hear_due_by_end : forall c l, by_end l -> by_end (hear_due c l).
Proof.
  induction l as [|x t IH]; intros B; cbn.
  - apply by_end_cons; [intros [|?] ? ? ? ? H; discriminate|constructor].
  - destruct (by_end_tail _ _ B) as [B1 F1]. destruct (h_end x <=? h_end c) eqn:E.
    + apply by_end_cons; [auto|]. apply Forall_forall. intros y Hy.
      rewrite hear_due_perm in Hy. destruct Hy as [<-|Hy]; [lia|]. rewrite Forall_forall in F1. auto.
    + apply by_end_cons; [exact B|]. constructor; [lia|].
      eapply Forall_impl; [|exact F1]. cbn. intros; lia.
Qed.

Record e_inv (h : host) (s : ears) : Prop := mkEInv {
  ei_remote : wf_sat h (e_remote s);
  ei_sorted : by_end (e_pending s);
  ei_ahead : Forall (fun x => e_now s <= h_end x) (e_pending s);
  ei_times : Forall (fun e => fst e = h_end (snd e) /\ fst e <= e_now s) (e_up s) }.

Lemma e_step_inv : forall h s o s', e_inv h s -> eop_wf h o -> e_step h s o = Some s' ->
  e_inv h s' /\
  (forall l, Permutation (map snd (e_up s') ++ e_pending s' ++ heard (e_remote s') l)
                         (map snd (e_up s) ++ e_pending s ++ heard (e_remote s) (o :: l))) /\
  (forall l, e_signals s' ++ changes (e_remote s') (targets l) = e_signals s ++ changes (e_remote s) (targets (o :: l))).
Proof.
  intros h s o s' [Rm So Ah Ti] W St. unfold e_step in St.
  assert (OT : forall t, (e_now s <=? t) && forallb (fun c => t <=? h_end c) (e_pending s) = true ->
    e_now s <= t /\ Forall (fun x => t <= h_end x) (e_pending s)).
  { intros t H. apply andb_true_iff in H. destruct H as [H1 H2]. split; [lia|].
    rewrite forallb_forall in H2. apply Forall_forall. intros x Hx. specialize (H2 x Hx). lia. }
  assert (Lt : forall t, e_now s <= t -> Forall (fun e => fst e = h_end (snd e) /\ fst e <= t) (e_up s)).
  { intros t L. eapply Forall_impl; [|exact Ti]. cbn. intros; lia. }
  destruct o as [t src u proto tx|t a|].
  - destruct (_ && _) eqn:T in St; [|discriminate]. destruct (OT t T) as [L F]. destruct W as [Ws Wt].
    rewrite (wf_neqb h src (e_remote s) Ws Rm) in St. cbn [heard].
    destruct (sat_dec src (e_remote s)) as [E|E]; apply some_inj in St; subst s'; cbn.
    + split; [|split].
      * constructor; cbn; auto. { apply hear_due_by_end; exact So. }
        apply Forall_forall. intros y Hy. rewrite hear_due_perm in Hy. destruct Hy as [<-|Hy]; [cbn; lia|].
        rewrite Forall_forall in F. auto.
      * intros l. apply Permutation_app_head. rewrite hear_due_perm. cbn. apply Permutation_middle.
      * reflexivity.
    + split; [|split; reflexivity]. constructor; cbn; auto.
  - destruct (_ && _) eqn:T in St; [|discriminate]. destruct (OT t T) as [L F].
    cbn [set_remote] in St. apply some_inj in St. subst s'. cbn [e_remote e_pending e_up e_signals].
    split; [|split].
    + constructor; cbn; auto.
    + reflexivity.
    + intros l. cbn [targets flat_map app changes]. rewrite (wf_neqb h _ a Rm W).
      destruct (sat_dec (e_remote s) a); cbn; rewrite ?app_nil_r, <- ?app_assoc; reflexivity.
  - destruct (e_pending s) as [|c l] eqn:P; [discriminate|]. apply some_inj in St. subst s'. cbn.
    destruct (by_end_tail _ _ So) as [B1 F1]. inversion Ah as [|? ? Hc Hl]; subst.
    split; [|split].
    + constructor; cbn; auto. apply Forall_app. split; [apply Lt; exact Hc|]. repeat constructor; cbn; lia.
    + intros l'. rewrite map_app, <- app_assoc. reflexivity.
    + reflexivity.
Qed.

Lemma last_cons : forall A (x y : A) m, last (x :: m) y = last m x.
Proof.
  intros A x y m. revert x y. induction m as [|z m IH]; intros x y; [reflexivity|].
  change (last (z :: m) y = last (z :: m) x). rewrite !IH. reflexivity.
Qed.

Lemma e_run_facts : forall h ops s s', e_inv h s -> Forall (eop_wf h) ops -> e_run h s ops = Some s' ->
  e_inv h s' /\
  Permutation (map snd (e_up s') ++ e_pending s') (map snd (e_up s) ++ e_pending s ++ heard (e_remote s) ops) /\
  e_signals s' = e_signals s ++ changes (e_remote s) (targets ops) /\
  e_remote s' = last (targets ops) (e_remote s).
Proof.
  intros h. induction ops as [|o l IH]; intros s s' I W R; cbn [e_run] in R.
  - injection R as <-. cbn. rewrite !app_nil_r. auto.
  - destruct (e_step h s o) as [s1|] eqn:E; [|discriminate]. inversion W; subst.
    destruct (e_step_inv h s o s1 I) as (I1 & P1 & S1); auto.
    destruct (IH s1 s' I1) as (A & B & C & D); auto. (split; [exact A|split; [|split]]).
    + rewrite B. apply P1.
    + rewrite C. apply S1.
    + rewrite D. unfold e_step in E. destruct o as [t src u proto tx|t a|].
      * destruct (_ && _) in E; [|discriminate]. destruct (sat_neqb h src (e_remote s)); injection E as <-; reflexivity.
      * destruct (_ && _) in E; [|discriminate]. injection E as <-. cbn [targets flat_map e_remote].
        change ([a] ++ flat_map _ l) with (a :: targets l). symmetry. apply last_cons.
      * destruct (e_pending s); [discriminate|]. injection E as <-. reflexivity.
Qed.

Lemma changes_chain : forall l a, chain a (changes a l).
Proof. induction l as [|b l IH]; intros a; cbn; [exact Logic.I|]. destruct (sat_dec a b) as [->|N]; [apply IH|cbn; auto]. Qed.
Lemma changes_last : forall l a, last (map snd (changes a l)) a = last l a.
Proof.
  induction l as [|b l IH]; intros a; cbn [changes]; [reflexivity|]. rewrite last_cons.
  destruct (sat_dec a b) as [->|N]; [apply IH|]. cbn [map snd]. rewrite last_cons. apply IH.
Qed.

(** * The URI of the face *)
Lemma f_run_app : forall h a b s, f_run h s (a ++ b) = f_run h (f_run h s a) b.
Proof. intros. apply fold_left_app. Qed.

Lemma f_run_retargets : forall h l s, wf_sat h (f_remote s) -> Forall (wf_sat h) l ->
  f_remote (f_run h s (map FRetarget l)) = last l (f_remote s) /\
  f_uri (f_run h s (map FRetarget l)) =
    match f_uri s with
    | None => None
    | Some u => Some (match changes (f_remote s) l with [] => u | _ => sat_uri h (last l (f_remote s)) end)
    end.
Proof.
  intros h. induction l as [|b l IH]; intros s W F; cbn [map].
  - cbn. destruct (f_uri s); auto.
  - inversion F; subst. unfold f_run in *. cbn [fold_left].
    destruct (IH (f_step h s (FRetarget b))) as [A B]; auto.
    rewrite A, B. cbn [f_step set_remote f_remote f_uri]. rewrite !last_cons. split; [reflexivity|].
    rewrite (wf_neqb h _ b W H1). destruct (f_uri s) as [u|]; [|reflexivity].
    cbn [changes]. destruct (sat_dec (f_remote s) b) as [E|E]; cbn [fold_left snd]; [reflexivity|].
    f_equal. destruct (changes b l) eqn:C; [|reflexivity].
    rewrite <- (changes_last l b), C. reflexivity.
Qed.

Lemma zero_uri : forall h, sat_uri h (sat_make h 0 0 0) = initial_uri.
Proof. intros [|]; vm_compute; reflexivity. Qed.
