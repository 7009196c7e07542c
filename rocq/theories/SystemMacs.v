(** What the theorems on whole runs need of each MAC. *)
From Coq Require Import ZArith List Lia Bool Arith Permutation.
From Verif Require Import Base RxModel RxSpec RxProofs AlohaModel AlohaSpec AlohaProofs CrdsaModel CrdsaSpec CrdsaProofs CrdsaRun SystemModel SystemSpec SystemProofs.
Import ListNotations.
Open Scope Z_scope.

(** * One copy, passed up or not *)
Lemma none_always : always none_mac.
Proof. intros m r m' up H. injection H as _ <-. reflexivity. Qed.

Lemma always_single : forall M (rx : mac_rx M), always rx -> single rx.
Proof. intros M rx A m r m' up H. right. eapply A. exact H. Qed.

Lemma aloha_single : forall below, single (aloha_mac below).
Proof.
  intros below m r m' up H. cbn [aloha_mac mac_finish] in H. unfold aloha_finish in H. injection H as _ <-.
  destruct (_ && _); auto.
Qed.

Lemma log_single : forall M (rx : mac_rx M) m0 ops s, single rx -> rx_run rx (rx_init m0) ops = Some (Ok s) ->
  forall x up v, In (x, up) (st_log s) -> In v up -> v = rx_uid x.
Proof.
  intros M rx m0 ops s Si R. revert ops s R.
  apply (rx_run_ind M rx (rx_init m0) (fun ops s => forall x up v, In (x, up) (st_log s) -> In v up -> v = rx_uid x)).
  - intros x up v [].
  - intros ops o s s' R IH E x up v I V. destruct o as [t u tx pw|]; cbn [rx_step] in E.
    + destruct (_ && _); [|discriminate]. injection E as <-. eapply IH; eauto.
    + destruct (st_pending s) as [|r l]; [discriminate|].
      destruct (mac_finish rx (st_mac s) r) as [[m' up']| | |] eqn:Ef; cbn [rbind] in E; try discriminate.
      injection E as <-. cbn [st_log] in I. apply in_app_or in I. destruct I as [I|[I|[]]]; [eapply IH; eauto|].
      injection I as -> ->. destruct (Si _ _ _ _ Ef) as [->| ->]; [destruct V|]. destruct V as [<-|[]]. reflexivity.
Qed.

Lemma single_honest : forall M (rx : mac_rx M) m0, single rx -> honest rx m0 rx_end.
Proof.
  intros M rx m0 Si ops st x up v R Sa I V. exists x.
  destruct (base_inv_holds M rx m0 ops st R Sa) as (P & _). split; [|split; [symmetry; eapply log_single; eauto|lia]].
  eapply Permutation_in; [exact (Permutation_sym P)|]. apply in_or_app. left. apply in_map_iff. exists (x, up). auto.
Qed.

(** * CRDSA *)
Section Crdsa.
Variable below : Z -> Z -> bool.
Variable two garbage : Z.

Definition begun (ops : list rx_op) (t v : Z) : Prop := exists y, In y (receptions ops) /\ rx_uid y = v /\ rx_start y <= t.

Record cr_known (ops : list rx_op) (s : rx_state crdsa) : Prop := {
  ck_set : forall v, In v (cr_set (st_mac s)) -> begun ops (st_now s) v;
  ck_act : forall q v, In q (cr_active (st_mac s)) -> In v (snd q) -> begun ops (st_now s) v;
  ck_pend : forall r, In r (st_pending s) -> In r (receptions ops) /\ rx_start r <= st_now s /\ st_now s <= rx_end r;
  ck_log : forall x up v, In (x, up) (st_log s) -> In v up -> begun ops (rx_end x) v }.

Lemma begun_more : forall ops ops' t t' v, begun ops t v -> t <= t' -> begun (ops ++ ops') t' v.
Proof. intros ops ops' t t' v (y & I & E & L) Lt. exists y. rewrite receptions_app, in_app_iff. repeat split; auto. lia. Qed.

Lemma insert_uid_in : forall u v l, In v (insert_uid u l) -> v = u \/ In v l.
Proof.
  induction l as [|x l IH]; cbn [insert_uid]; intros H.
  - destruct H as [<-|[]]; auto.
  - destruct (u <? x); [destruct H; auto|]. destruct (u =? x); [auto|]. destruct H as [<-|H]; [right; left; auto|].
    destruct (IH H); [auto|right; right; auto].
Qed.

Lemma known_run : forall ops s, rx_run (crdsa_mac below two) (rx_init (crdsa_init garbage)) ops = Some (Ok s) -> sane ops -> cr_known ops s.
Proof.
  intros ops s R. revert ops s R.
  apply (rx_run_ind crdsa (crdsa_mac below two) (rx_init (crdsa_init garbage)) (fun ops s => sane ops -> cr_known ops s)).
  - intros _. constructor; cbn; tauto.
  - intros ops o s s' R IH E Sa. assert (Sa' : sane ops) by (eapply sane_app; exact Sa). specialize (IH Sa'). destruct IH as [Ks Ka Kp Kl].
    destruct o as [t u tx pw|]; cbn [rx_step] in E.
    + destruct ((st_now s <=? t) && forallb (fun r => t <=? rx_end r) (st_pending s)) eqn:G; [|discriminate]. apply andb_true_iff in G.
      destruct G as [G1 G2]. apply Z.leb_le in G1. rewrite forallb_forall in G2. injection E as <-.
      assert (Tx : 0 < tx).
      { unfold sane in Sa. rewrite receptions_app, Forall_app in Sa. destruct Sa as [_ Sa]. apply Forall_inv in Sa. cbn in Sa. lia. }
      constructor; cbn [st_mac st_now st_pending st_log crdsa_mac mac_start crdsa_start cr_set cr_active].
      * intros v H. apply insert_uid_in in H. destruct H as [->|H]; [|eapply begun_more; [apply Ks; exact H|exact G1]].
        exists (mkRx u t (t + tx) pw). rewrite receptions_app. split; [apply in_or_app; right; left; reflexivity|]. cbn. split; [reflexivity|lia].
      * intros q v Hq H. eapply begun_more; [eapply Ka; eauto|exact G1].
      * intros r H. apply schedule_in in H. rewrite receptions_app, in_app_iff. destruct H as [->|H].
        -- cbn. split; [auto|lia].
        -- destruct (Kp r H) as (A & B & C). specialize (G2 r H). apply Z.leb_le in G2. repeat split; auto; lia.
      * intros x up v I V. eapply begun_more; [eapply Kl; eauto|lia].
    + destruct (st_pending s) as [|r l] eqn:Ep; [discriminate|]. cbn [crdsa_mac mac_finish] in E.
      destruct (crdsa_finish below two (st_mac s) r) as [[m' up]| | |] eqn:Ef; cbn [rbind] in E; try discriminate.
      injection E as <-. destruct (Kp r (or_introl eq_refl)) as (Rr & Rs & Rn).
      destruct (crdsa_finish_cases _ _ _ _ _ _ Ef) as (rec1 & up1 & C1 & C2 & C). cbv zeta in *.
      assert (Br : begun ops (rx_end r) (rx_uid r)) by (exists r; repeat split; auto; lia).
      assert (U1 : forall v, In v up1 -> begun ops (rx_end r) v).
      { intros v Hv. destruct (al_coll (cr_busy (st_mac s)) && below (rx_pow r) (al_power (cr_busy (st_mac s)) - rx_pow r)) eqn:Hc.
        - destruct (C1 (or_introl eq_refl)) as [_ ->]. destruct Hv.
        - destruct (in_dec Z.eq_dec (rx_uid r) (map fst (cr_received (st_mac s)))) as [Y|N].
          + destruct (C1 (or_intror Y)) as [_ ->]. destruct Hv.
          + destruct (C2 (conj eq_refl N)) as [_ ->]. destruct Hv as [<-|[]]. exact Br. }
      destruct (base_inv_holds crdsa (crdsa_mac below two) (crdsa_init garbage) ops s R Sa') as (_ & So & _). rewrite Ep in So.
      assert (Sl : forall x, In x l -> rx_end r <= rx_end x).
      { apply Sorting.Sorted.StronglySorted_inv in So. destruct So as [_ So]. rewrite Forall_forall in So. exact So. }
      destruct C as [(No & -> & ->)|(Ow & act2 & rec2 & act3 & rec3 & up2 & E2 & E3 & Ec & -> & ->)].
      * constructor; cbn [st_mac st_now st_pending st_log cr_set cr_active].
        -- intros v H. eapply begun_more; [apply Ks; exact H|lia].
        -- intros q v Hq H. eapply begun_more; [eapply Ka; eauto|lia].
        -- intros x H. destruct (Kp x (or_intror H)) as (A & B & D). rewrite receptions_app, in_app_iff. repeat split; auto; lia.
        -- intros x up v I V. apply in_app_or in I. destruct I as [I|[I|[]]]; [eapply begun_more; [eapply Kl; eauto|lia]|].
           injection I as <- <-. eapply begun_more; [apply U1; exact V|lia].
      * assert (A2 : forall q v, In q act2 -> In v (snd q) -> begun ops (rx_end r) v).
        { intros q v Hq Hv. rewrite E2 in Hq. destruct (clean_periods_suffix (rx_end r - two)
            (if al_coll (cr_busy (st_mac s)) && below (rx_pow r) (al_power (cr_busy (st_mac s)) - rx_pow r)
             then cr_active (st_mac s) ++ [(al_finish (cr_busy (st_mac s)), cr_set (st_mac s))] else cr_active (st_mac s))) as [l1 L].
          assert (Hq' : In q (l1 ++ clean_periods (rx_end r - two) (if al_coll (cr_busy (st_mac s)) && below (rx_pow r) (al_power (cr_busy (st_mac s)) - rx_pow r)
             then cr_active (st_mac s) ++ [(al_finish (cr_busy (st_mac s)), cr_set (st_mac s))] else cr_active (st_mac s)))) by (apply in_or_app; auto).
          rewrite <- L in Hq'.
          assert (Bm : forall w, begun ops (st_now s) w -> begun ops (rx_end r) w) by (intros w (y & Y1 & Y2 & Y3); exists y; repeat split; auto; lia).
          destruct (_ && _).
          - apply in_app_or in Hq'. destruct Hq' as [H|[H|[]]]; [apply Bm; eapply Ka; eauto|]. subst q. cbn in Hv. apply Bm, Ks. exact Hv.
          - apply Bm. eapply Ka; eauto. }
        destruct (cancel_ok _ _ _ _ _ _ _ Ec) as (_ & _ & _ & Q4 & _ & Q6).
        constructor; cbn [st_mac st_now st_pending st_log cr_set cr_active].
        -- intros v [].
        -- intros q v Hq H. rewrite Q4 in Hq. apply remaining_in in Hq. destruct Hq as (q0 & H0 & -> & _). cbn [reduce snd] in H.
           apply missing_in in H. destruct H as [H _]. eapply begun_more; [eapply A2; eauto|lia].
        -- intros x H. destruct (Kp x (or_intror H)) as (A & B & D). rewrite receptions_app, in_app_iff. repeat split; auto; lia.
        -- intros x up v I V. apply in_app_or in I. destruct I as [I|[I|[]]]; [eapply begun_more; [eapply Kl; eauto|lia]|].
           injection I as <- <-. apply in_app_or in V. destruct V as [V|V]; [eapply begun_more; [apply U1; exact V|lia]|].
           apply in_split in V. destruct V as (u1 & u2 & V). destruct (Q6 _ _ _ V) as (q & Hq & Hv & _). eapply begun_more; [eapply A2; eauto|lia].
Qed.

Lemma crdsa_honest : honest (crdsa_mac below two) (crdsa_init garbage) rx_start.
Proof. intros ops st x up v R Sa I V. exact (ck_log _ _ (known_run ops st R Sa) x up v I V). Qed.
End Crdsa.
