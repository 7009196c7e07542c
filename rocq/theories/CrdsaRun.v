(** Invariants of the CRDSA receiver over schedules. *)
From Coq Require Import ZArith List Lia Bool Permutation Sorting.Sorted.
From Verif Require Import Base RxModel RxSpec RxProofs AlohaModel AlohaSpec AlohaProofs CrdsaModel CrdsaSpec CrdsaProofs.
Import ListNotations.
Open Scope Z_scope.

Section Run.
Variable below : Z -> Z -> bool.
Variable two : Z.
Variable garbage : Z.
Let mac := crdsa_mac below two.
Let start := rx_init (crdsa_init garbage).

(** *** The busy-period bookkeeping is that of Aloha *)

Lemma crdsa_project : forall ops s, rx_run mac start ops = Some (Ok s) ->
  exists ps, rx_run (aloha_mac below) (rx_init (aloha_init garbage)) ops = Some (Ok ps) /\
    st_mac ps = cr_busy (st_mac s) /\ st_pending ps = st_pending s /\ st_now ps = st_now s.
Proof.
  apply (rx_run_ind crdsa mac start (fun ops s => exists ps,
    rx_run (aloha_mac below) (rx_init (aloha_init garbage)) ops = Some (Ok ps) /\
    st_mac ps = cr_busy (st_mac s) /\ st_pending ps = st_pending s /\ st_now ps = st_now s)).
  - eexists. split; [reflexivity|]. repeat split.
  - intros ops o s s' R (ps & Rp & Em & Epd & En) E.
    destruct o as [t u x p|]; cbn [rx_step] in E.
    + destruct (_ && _) eqn:G; [|discriminate]. inversion E; subst; clear E.
      eexists. split.
      * apply rx_run_snoc. exists ps. split; auto. cbn [rx_step]. rewrite Epd, En, G. reflexivity.
      * cbn [st_mac st_pending st_now mac crdsa_mac aloha_mac mac_start crdsa_start cr_busy]. rewrite Em. auto.
    + destruct (st_pending s) as [|r l] eqn:Ep; [discriminate|].
      cbn [mac crdsa_mac mac_finish] in E.
      destruct (crdsa_finish below two (st_mac s) r) as [[m' up]| | |] eqn:Ef; cbn [rbind] in E; try discriminate.
      inversion E; subst; clear E. eexists. split.
      * apply rx_run_snoc. exists ps. split; auto. cbn [rx_step]. rewrite Epd.
        cbn [aloha_mac mac_finish aloha_finish rbind]. reflexivity.
      * cbn [st_mac st_pending st_now]. split; auto. rewrite Em. unfold crdsa_finish in Ef.
        destruct (al_uid (cr_busy (st_mac s))) as [o|].
        -- destruct (o =? rx_uid r).
           ++ destruct (cancel _ _ _ _) as [[[a b] c]| | |]; cbn [rbind] in Ef; try discriminate.
              injection Ef as <- _. reflexivity.
           ++ injection Ef as <- _. reflexivity.
        -- injection Ef as <- _. reflexivity.
Qed.

Lemma busy_frames_snoc : forall M (m : mac_rx M) ops o s s' busy, rx_run m s ops = Some (Ok s') ->
  busy_frames (st_pending s) busy (ops ++ [o]) =
  busy_frames (st_pending s') (busy_frames (st_pending s) busy ops) [o].
Proof.
  induction ops as [|x ops IH]; intros o s s' busy R.
  - inversion R; subst. reflexivity.
  - cbn [rx_run app] in *. destruct x as [t u z p|]; cbn [rx_step] in R.
    + destruct (_ && _); [|discriminate]. cbn [busy_frames].
      exact (IH o (mkSt t (mac_start m (st_mac s) (mkRx u t (t + z) p)) (schedule (mkRx u t (t + z) p) (st_pending s)) (st_log s)) s' _ R).
    + destruct (st_pending s) as [|r l] eqn:Ep; [discriminate|].
      destruct (mac_finish m (st_mac s) r) as [[m' up]| | |]; cbn [rbind] in R; try discriminate.
      cbn [busy_frames tl]. exact (IH o (mkSt (rx_end r) m' l (st_log s ++ [(r, up)])) s' busy R).
Qed.

(** *** The collided packets and the stored collisions *)

Definition ordered (act : list period) : Prop := StronglySorted (fun p q => fst p <= fst q) act.

Definition cr_inv (ops : list rx_op) (s : rx_state crdsa) : Prop :=
  StronglySorted Z.lt (cr_set (st_mac s)) /\
  (st_pending s = [] -> cr_set (st_mac s) = []) /\
  (st_pending s <> [] -> forall u, In u (cr_set (st_mac s)) <-> In u (map rx_uid (busy_frames [] [] ops))) /\
  incl (st_pending s) (busy_frames [] [] ops) /\
  ordered (cr_active (st_mac s)) /\
  Forall (fun p => fst p <= st_now s /\ StronglySorted Z.lt (snd p)) (cr_active (st_mac s)) /\
  Forall (fun e => snd e <= st_now s) (cr_received (st_mac s)) /\
  NoDup (map fst (cr_received (st_mac s))).

Lemma clean_periods_suffix : forall limit l, exists l1, l = l1 ++ clean_periods limit l.
Proof.
  induction l as [|p l IH]; cbn [clean_periods]; [exists []; auto|].
  destruct (limit <? fst p); [exists []; auto|]. destruct IH as (l1 & E). exists (p :: l1). cbn. rewrite <- E. reflexivity.
Qed.

Lemma clean_periods_ordered : forall limit l, ordered l ->
  clean_periods limit l = filter (fun p => limit <? fst p) l.
Proof.
  induction l as [|p l IH]; intros O; [reflexivity|]. inversion O; subst. cbn [clean_periods filter].
  destruct (Z.ltb_spec limit (fst p)); auto. f_equal.
  clear -H H2. induction l as [|q l IH]; [reflexivity|]. inversion H2; subst. cbn [filter].
  rewrite (proj2 (Z.ltb_lt _ _)) by lia. f_equal. auto.
Qed.

Lemma strongly_sorted_filter : forall A (R : A -> A -> Prop) f l, StronglySorted R l -> StronglySorted R (filter f l).
Proof.
  induction 1; cbn [filter]; [constructor|]. destruct (f a); auto. constructor; auto.
  apply Forall_forall. intros x Hx. apply filter_In in Hx. rewrite Forall_forall in H0. apply H0. tauto.
Qed.

Lemma ordered_map : forall f l, (forall p, fst (f p) = fst p) -> ordered l -> ordered (map f l).
Proof.
  intros f l F. induction 1; cbn [map]; constructor; auto.
  apply Forall_forall. intros x Hx. apply in_map_iff in Hx. destruct Hx as (y & <- & Hy).
  rewrite Forall_forall in H0. rewrite !F. auto.
Qed.

Lemma ordered_remaining : forall rec act, ordered act -> ordered (remaining rec act).
Proof. intros. unfold remaining. apply strongly_sorted_filter. apply ordered_map; auto. Qed.

Lemma ordered_snoc : forall l q, ordered l -> Forall (fun p => fst p <= fst q) l -> ordered (l ++ [q]).
Proof.
  induction 1; cbn [app]; intros F; [repeat constructor|]. inversion F; subst. constructor; auto.
  - apply IHStronglySorted; auto.
  - apply Forall_app. split; auto.
Qed.

Lemma sorted_nodup_rec : forall limit rec, NoDup (map fst rec) -> NoDup (map fst (clean_received limit rec)).
Proof.
  intros limit rec. unfold clean_received. induction rec as [|e l IH]; intros N; [constructor|].
  cbn [filter map] in *. inversion N; subst. destruct (negb _); auto. cbn [map]. constructor; auto.
  intros I. apply H1. apply in_map_iff in I. destruct I as (x & <- & Ix). apply filter_In in Ix.
  apply in_map. tauto.
Qed.

(** The end of a reception, unfolded. *)
Lemma crdsa_finish_cases : forall s r m' up, crdsa_finish below two s r = Ok (m', up) ->
  let b := cr_busy s in
  let u := rx_uid r in
  let now := rx_end r in
  let hc := al_coll b && below (rx_pow r) (al_power b - rx_pow r) in
  exists rec1 up1,
    (hc = true \/ In u (map fst (cr_received s)) -> rec1 = cr_received s /\ up1 = []) /\
    (hc = false /\ ~ In u (map fst (cr_received s)) -> rec1 = (u, now) :: cr_received s /\ up1 = [u]) /\
    ( (al_uid b <> Some u /\ m' = mkCr b (cr_set s) (cr_active s) rec1 /\ up = up1) \/
      (al_uid b = Some u /\ exists act2 rec2 act3 rec3 up2,
         act2 = clean_periods (now - two) (if hc then cr_active s ++ [(al_finish b, cr_set s)] else cr_active s) /\
         rec2 = clean_received (now - two) rec1 /\
         cancel (S (pass_size act2)) now act2 rec2 = Ok (act3, rec3, up2) /\
         m' = mkCr (mkAloha None now false 0) [] act3 rec3 /\ up = up1 ++ up2)).
Proof.
  intros s r m' up E. cbv zeta. unfold crdsa_finish in E.
  set (hc := al_coll (cr_busy s) && below (rx_pow r) (al_power (cr_busy s) - rx_pow r)) in *.
  set (fresh := negb hc && negb (received (rx_uid r) (cr_received s))) in *.
  exists (if fresh then (rx_uid r, rx_end r) :: cr_received s else cr_received s), (if fresh then [rx_uid r] else []).
  split.
  { intros H. assert (fresh = false) as ->; auto. unfold fresh. destruct H as [->|H]; [reflexivity|].
    rewrite (proj2 (received_in _ _) H). destruct hc; reflexivity. }
  split.
  { intros [-> H]. unfold fresh. rewrite (proj2 (received_not_in _ _) H). cbn. auto. }
  destruct (al_uid (cr_busy s)) as [o|] eqn:Eo.
  - destruct (Z.eqb_spec o (rx_uid r)) as [->|N].
    + right. split; auto.
      destruct (cancel _ _ _ _) as [[[act3 rec3] up2]| | |] eqn:Ec; cbn [rbind fst snd] in E; try discriminate.
      injection E as <- <-. eexists _, _, _, _, _. split; [reflexivity|]. split; [reflexivity|]. split; [exact Ec|]. auto.
    + left. split; [congruence|]. injection E as <- <-. auto.
  - left. split; [congruence|]. injection E as <- <-. auto.
Qed.

Lemma cr_owner : forall ops s, rx_run mac start ops = Some (Ok s) -> sane ops -> separate [] ops ->
  match last_of (st_pending s) with
  | None => al_uid (cr_busy (st_mac s)) = None /\ al_coll (cr_busy (st_mac s)) = false
  | Some r => al_uid (cr_busy (st_mac s)) = Some (rx_uid r) /\ al_finish (cr_busy (st_mac s)) = rx_end r
  end.
Proof.
  intros ops s R Sa Se. destruct (crdsa_project ops s R) as (ps & Rp & Em & Ep & _).
  pose proof (owner_holds below garbage ops ps Rp Sa Se) as O. unfold owner_inv in O. rewrite Em, Ep in O. exact O.
Qed.

(** Being the owner is being the last to finish. *)
Lemma cr_owner_iff : forall ops s r l, rx_run mac start ops = Some (Ok s) -> sane ops -> separate [] ops ->
  st_pending s = r :: l -> (al_uid (cr_busy (st_mac s)) = Some (rx_uid r) <-> l = []) /\
  (l = [] -> al_finish (cr_busy (st_mac s)) = rx_end r).
Proof.
  intros ops s r l R Sa Se Ep. pose proof (cr_owner ops s R Sa Se) as O. rewrite Ep in O.
  pose proof (separate_pending _ _ _ _ _ R Se) as N. rewrite Ep in N.
  destruct l as [|y l'] using rev_ind.
  - cbn in O. tauto.
  - clear IHl'. change (r :: l' ++ [y]) with ((r :: l') ++ [y]) in O. rewrite last_of_snoc in O. destruct O as [O1 O2].
    assert (l' ++ [y] <> []) by (intros X; apply app_eq_nil in X; destruct X; discriminate).
    split; [|tauto]. rewrite O1. split; [|tauto]. intros X. injection X as X. exfalso.
    cbn [map] in N. inversion N; subst. apply H2. rewrite <- X. apply in_map. apply in_or_app; right; left; auto.
Qed.

Lemma grown_nodup : forall now up rec, NoDup up -> NoDup (map fst rec) -> (forall u, In u up -> ~ In u (map fst rec)) ->
  NoDup (map fst (grown now up rec)).
Proof.
  intros now up rec N1 N2 D. unfold grown. rewrite map_app, map_rev, map_map, map_id.
  apply NoDup_app_intro2; auto.
  - apply NoDup_rev; auto.
  - intros x I. apply in_rev in I. auto.
Qed.

Lemma cr_inv_holds : forall ops s, rx_run mac start ops = Some (Ok s) -> sane ops -> separate [] ops -> cr_inv ops s.
Proof.
  intros ops s R. revert ops s R.
  apply (rx_run_ind crdsa mac start (fun ops s => sane ops -> separate [] ops -> cr_inv ops s)).
  - intros _ _. unfold cr_inv. cbn.
    split; [constructor|]. split; [auto|]. split; [congruence|]. split; [intros ? []|].
    repeat split; constructor.
  - intros ops o s s' R IH E Sa Se. pose proof (sane_app _ _ Sa) as Sa'.
    destruct (separate_app _ _ _ _ _ _ R Se) as [Se' _].
    specialize (IH Sa' Se'). destruct IH as (I1 & I2 & I3 & I4 & I5 & I6 & I7 & I8).
    assert (Bs : busy_frames [] [] (ops ++ [o]) = busy_frames (st_pending s) (busy_frames [] [] ops) [o])
      by (apply (busy_frames_snoc crdsa mac ops o start s []); exact R).
    unfold cr_inv. rewrite Bs.
    destruct o as [t u x p|]; cbn [rx_step] in E.
    + destruct (_ && _) eqn:G; [|discriminate]. inversion E; subst; clear E.
      apply andb_true_iff in G. destruct G as [G _]. apply Z.leb_le in G.
      cbn [st_mac st_pending st_now mac crdsa_mac mac_start crdsa_start cr_set cr_active cr_received rx_uid busy_frames].
      set (r := mkRx u t (t + x) p).
      assert (Ne : schedule r (st_pending s) <> []).
      { intros X. pose proof (proj2 (schedule_in r (st_pending s) r) (or_introl eq_refl)) as Y. rewrite X in Y. exact Y. }
      split; [apply insert_uid_sorted; auto|]. split; [tauto|]. split; [|split; [|split; [|split; [|split]]]].
      * intros _ v. rewrite insert_uid_in. destruct (st_pending s) as [|q l] eqn:Ep.
        -- rewrite I2 by auto. cbn. intuition.
        -- rewrite map_app, in_app_iff. rewrite I3 by discriminate. cbn. intuition.
      * intros q Hq. apply schedule_in in Hq. destruct (st_pending s) as [|q0 l].
        -- destruct Hq as [->|[]]. left; auto.
        -- apply in_or_app. destruct Hq as [->|Hq]; [right; left; auto|left; auto].
      * exact I5.
      * eapply Forall_impl; [|exact I6]. cbn. intros a [A B]. split; auto. lia.
      * eapply Forall_impl; [|exact I7]. cbn. intros. lia.
      * exact I8.
    + destruct (st_pending s) as [|r l] eqn:Ep; [discriminate|].
      cbn [mac crdsa_mac mac_finish] in E.
      destruct (crdsa_finish below two (st_mac s) r) as [[m' up]| | |] eqn:Ef; cbn [rbind] in E; try discriminate.
      inversion E; subst; clear E. cbn [st_mac st_pending st_now busy_frames].
      destruct (base_inv_holds _ _ _ _ _ R Sa') as (_ & _ & Fn & _). rewrite Ep in Fn. inversion Fn; subst.
      destruct (cr_owner_iff ops s r l R Sa' Se' Ep) as [Ow Of].
      destruct (crdsa_finish_cases _ _ _ _ Ef) as (rec1 & up1 & C1 & C2 & C). cbv zeta in *.
      set (hc := al_coll (cr_busy (st_mac s)) && below (rx_pow r) (al_power (cr_busy (st_mac s)) - rx_pow r)) in *.
      assert (R1 : Forall (fun e => snd e <= rx_end r) rec1 /\ NoDup (map fst rec1)).
      { assert (F1 : Forall (fun e : Z * Z => snd e <= rx_end r) (cr_received (st_mac s)))
          by (eapply Forall_impl; [|exact I7]; cbn; intros; lia).
        destruct (in_dec Z.eq_dec (rx_uid r) (map fst (cr_received (st_mac s)))) as [Ir|Ir].
        - destruct C1 as [-> _]; auto.
        - destruct hc.
          + destruct C1 as [-> _]; auto.
          + destruct C2 as [-> _]; auto. split; constructor; auto. cbn. lia. }
      destruct R1 as [R1 R2].
      destruct C as [(Nu & -> & _)|(Uu & act2 & rec2 & act3 & rec3 & up2 & E2 & E3 & Ec & -> & _)];
        cbn [cr_set cr_active cr_received].
      * assert (Ln : l <> []) by tauto.
        split; auto. split; [intros X; contradiction|]. split; [intros _; apply I3; discriminate|].
        split; [intros q Hq; apply I4; right; auto|]. split; auto. split; auto.
        eapply Forall_impl; [|exact I6]. cbn. intros a [A B]. split; auto. lia.
      * assert (l = []) by tauto. subst l.
        destruct (cancel_ok _ _ _ _ _ _ _ Ec) as (K1 & K2 & K3 & K4 & _ & _).
        assert (A1 : ordered (if hc then cr_active (st_mac s) ++ [(al_finish (cr_busy (st_mac s)), cr_set (st_mac s))] else cr_active (st_mac s))
          /\ Forall (fun p => fst p <= rx_end r /\ StronglySorted Z.lt (snd p)) (if hc then cr_active (st_mac s) ++ [(al_finish (cr_busy (st_mac s)), cr_set (st_mac s))] else cr_active (st_mac s))).
        { assert (F6 : Forall (fun p : period => fst p <= rx_end r /\ StronglySorted Z.lt (snd p)) (cr_active (st_mac s)))
            by (eapply Forall_impl; [|exact I6]; cbn; intros a [A B]; split; auto; lia).
          destruct hc; [|auto]. rewrite (Of eq_refl). split.
          - apply ordered_snoc; auto. eapply Forall_impl; [|exact F6]. cbn. tauto.
          - apply Forall_app. split; auto. constructor; auto. cbn. split; auto. lia. }
        destruct A1 as [A1 A2].
        assert (A3 : incl act2 (if hc then cr_active (st_mac s) ++ [(al_finish (cr_busy (st_mac s)), cr_set (st_mac s))] else cr_active (st_mac s))).
        { rewrite E2, clean_periods_ordered by auto. apply incl_filter. }
        split; [constructor|]. split; auto. split; [congruence|]. split; [intros ? []|]. split; [|split; [|split]].
        -- rewrite K4. apply ordered_remaining. rewrite E2, clean_periods_ordered by auto. apply strongly_sorted_filter; auto.
        -- rewrite K4. apply Forall_forall. intros q Hq. apply remaining_in in Hq. destruct Hq as (p & Ip & -> & _).
           rewrite Forall_forall in A2. destruct (A2 p (A3 p Ip)) as [B1 B2]. cbn [reduce fst snd]. split; auto.
           apply strongly_sorted_filter; auto.
        -- rewrite K1. unfold grown. apply Forall_app. split.
           ++ apply Forall_forall. intros e He. apply in_rev in He. apply in_map_iff in He. destruct He as (v & <- & _). cbn. lia.
           ++ rewrite E3. unfold clean_received. apply Forall_forall. intros e He. apply filter_In in He.
              rewrite Forall_forall in R1. apply R1. tauto.
        -- rewrite K1. apply grown_nodup; auto. rewrite E3. apply sorted_nodup_rec; auto.
Qed.
End Run.
