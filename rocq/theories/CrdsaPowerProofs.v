From Coq Require Import ZArith List Lia Bool.
From Verif Require Import Base RxModel RxSpec AlohaModel AlohaSpec CrdsaModel DoubleModel PowerModel PowerSpec PowerProofs CrdsaPowerModel.
Import ListNotations.
Open Scope Z_scope.

(** A schedule that one MAC can run through, another that never fails can. *)
Lemma playable : forall (M N : Type) (m : mac_rx M) (n : mac_rx N), (forall x r, exists y, mac_finish n x r = Ok y) ->
  forall ops s s' t, rx_run m s ops = Some (Ok s') -> st_now t = st_now s -> st_pending t = st_pending s -> exists t', rx_run n t ops = Some (Ok t').
Proof.
  intros M N m n Hn. induction ops as [|o ops IH]; intros s s' t R E1 E2; cbn [rx_run] in *; [eauto|].
  destruct o as [tm u x p|]; cbn [rx_step] in *.
  - rewrite E1, E2. destruct (_ && _); [|discriminate]. eapply IH; [exact R| |]; cbn [st_now st_pending]; reflexivity.
  - rewrite E2. destruct (st_pending s) as [|a l]; [discriminate|]. destruct (Hn (st_mac t) a) as ([y up] & Ey). rewrite Ey. cbn [rbind].
    destruct (mac_finish m (st_mac s) a) as [[z up']| | |]; cbn [rbind] in R; try discriminate. eapply IH; [exact R| |]; reflexivity.
Qed.

Lemma run_log : forall (M : Type) (m : mac_rx M) ops s s', rx_run m s ops = Some (Ok s') -> exists new, st_log s' = st_log s ++ new.
Proof.
  intros M m. induction ops as [|o ops IH]; intros s s' R; cbn [rx_run] in R; [injection R as <-; exists []; symmetry; apply app_nil_r|].
  destruct (rx_step m s o) as [[s1| | |]|] eqn:E; try discriminate. destruct (IH _ _ R) as (new & ->).
  destruct o as [t u x p|]; cbn [rx_step] in E.
  - destruct (_ && _); [|discriminate]. injection E as <-. eauto.
  - destruct (st_pending s) as [|a l]; [discriminate|]. destruct (mac_finish m (st_mac s) a) as [[z up]| | |]; cbn [rbind] in E; try discriminate.
    injection E as <-. cbn [st_log]. rewrite <- app_assoc. eauto.
Qed.

(** The two receivers differ only in the power. *)
Definition twin (d : rx_state crdsa_d) (s : rx_state crdsa) : Prop :=
  st_now d = st_now s /\ st_pending d = st_pending s /\ st_log d = st_log s /\
  ad_uid (cd_busy (st_mac d)) = al_uid (cr_busy (st_mac s)) /\ ad_finish (cd_busy (st_mac d)) = al_finish (cr_busy (st_mac s)) /\
  ad_coll (cd_busy (st_mac d)) = al_coll (cr_busy (st_mac s)) /\
  cd_set (st_mac d) = cr_set (st_mac s) /\ cd_active (st_mac d) = cr_active (st_mac s) /\ cd_received (st_mac d) = cr_received (st_mac s).

(** An Aloha receiver at the same place. *)
Definition beside_d (d : rx_state crdsa_d) (a : rx_state aloha_d) : Prop :=
  st_now a = st_now d /\ st_pending a = st_pending d /\ st_mac a = cd_busy (st_mac d).
Definition beside (s : rx_state crdsa) (a : rx_state aloha) : Prop :=
  st_now a = st_now s /\ st_pending a = st_pending s /\ st_mac a = cr_busy (st_mac s).

Definition same_outcome (x : option (result (rx_state crdsa_d))) (y : option (result (rx_state crdsa))) : Prop :=
  match x, y with
  | Some (Ok d), Some (Ok s) => st_log d = st_log s
  | Some Assert, Some Assert | Some Abort, Some Abort | Some UB, Some UB | None, None => True
  | _, _ => False
  end.

Lemma decide : forall (b c : bool) (u : Z), (if b then [] else [u]) = (if c then [] else [u]) -> b = c.
Proof. intros [] [] u H; (reflexivity || discriminate). Qed.

Section Twin.
Variables (low : double -> bool) (below : Z -> Z -> bool) (two : Z).

(** If Aloha decides alike, so does CRDSA. *)
Lemma twin_run : forall ops d s ad al d' s' new,
  twin d s -> beside_d d ad -> beside s al ->
  rx_run (aloha_d_mac low) ad ops = Some (Ok d') -> rx_run (aloha_mac below) al ops = Some (Ok s') ->
  st_log d' = st_log ad ++ new -> st_log s' = st_log al ++ new ->
  same_outcome (rx_run (crdsa_d_mac low two) d ops) (rx_run (crdsa_mac below two) s ops).
Proof.
  induction ops as [|o ops IH]; intros d s ad al d' s' new Tw Bd Bs Rd Rs Ld Ls.
  { cbn [rx_run same_outcome]. apply Tw. }
  destruct Tw as (T1 & T2 & T3 & T4 & T5 & T6 & T7 & T8 & T9). destruct Bd as (D1 & D2 & D3). destruct Bs as (S1 & S2 & S3).
  destruct o as [t u x p|]; cbn [rx_run rx_step] in *.
  - rewrite S1, S2 in Rs. rewrite D1, D2 in Rd. rewrite T1, T2 in *. destruct (_ && _); [|discriminate].
    refine (IH _ _ _ _ d' s' new _ _ _ Rd Rs Ld Ls).
    + unfold twin. cbn [st_now st_pending st_log st_mac crdsa_d_mac crdsa_mac mac_start cd_begin crdsa_start cd_busy cr_busy cd_set cr_set cd_active cr_active cd_received cr_received].
      rewrite T7, T8, T9. repeat (split; [auto; fail|]). unfold ad_begin, aloha_start. cbn [rx_start rx_end rx_uid].
      destruct (cd_busy (st_mac d)) as [v1 v2 v3 v4], (cr_busy (st_mac s)) as [w1 w2 w3 w4]. cbn [ad_uid ad_finish ad_coll al_uid al_finish al_coll] in *. subst w1 w2 w3.
      destruct v1 as [v|]; cbn [andb negb orb]; [|cbn; auto 10].
      destruct (t <? v2); cbn [ad_finish al_finish]; destruct (v2 <=? t + x); cbn; auto 10.
    + unfold beside_d. cbn. rewrite D3. auto.
    + unfold beside. cbn. rewrite S3. auto.
  - rewrite S2 in Rs. rewrite D2 in Rd. rewrite T2 in *. destruct (st_pending s) as [|a l]; [discriminate|].
    cbn [aloha_d_mac aloha_mac mac_finish crdsa_d_mac crdsa_mac] in *.
    unfold ad_end in Rd. unfold aloha_finish in Rs. cbn [rbind] in Rd, Rs. unfold cd_end, crdsa_finish. cbv zeta.
    destruct (run_log _ _ _ _ _ Rd) as (nd & Nd). destruct (run_log _ _ _ _ _ Rs) as (ns & Ns). cbn [st_log] in Nd, Ns.
    rewrite <- app_assoc in Nd, Ns. rewrite Ld in Nd. rewrite Ls in Ns. apply app_inv_head in Nd, Ns. subst new. injection Ns as De Nw. subst ns.
    rewrite D3, S3 in *. apply decide in De.
    rewrite T8, T9, T7, T4, T5. rewrite De. set (c := al_coll (cr_busy (st_mac s)) && below (rx_pow a) (al_power (cr_busy (st_mac s)) - rx_pow a)) in *.
    assert (Own : match al_uid (cr_busy (st_mac s)) with Some o => o =? rx_uid a | None => false end = true ->
              exists o, al_uid (cr_busy (st_mac s)) = Some o /\ (o =? rx_uid a) = true) by (destruct (al_uid _); [eauto|discriminate]).
    destruct (match al_uid (cr_busy (st_mac s)) with Some o => o =? rx_uid a | None => false end) eqn:Ow.
    + destruct (Own eq_refl) as (o & Eo & Eq).
      destruct (cancel _ _ _ _) as [[ar up2]| | |]; cbn [rbind]; try exact Logic.I.
      refine (IH _ _ _ _ d' s' nd _ _ _ Rd Rs _ _).
      * unfold twin. cbn. rewrite T3. auto 12.
      * unfold beside_d. cbn. rewrite T4, Eo, Eq. auto.
      * unfold beside. cbn. rewrite Eo, Eq. auto.
      * rewrite Ld. cbn [st_log]. rewrite <- app_assoc, De. reflexivity.
      * rewrite Ls. cbn [st_log]. rewrite <- app_assoc, De. reflexivity.
    + cbn [rbind]. refine (IH _ _ _ _ d' s' nd _ _ _ Rd Rs _ _).
      * unfold twin. cbn. rewrite T3. auto 12.
      * unfold beside_d. cbn. rewrite T4. destruct (al_uid _) as [o|]; [rewrite Ow|]; auto.
      * unfold beside. cbn. destruct (al_uid _) as [o|]; [rewrite Ow|]; auto.
      * rewrite Ld. cbn [st_log]. rewrite <- app_assoc, De. reflexivity.
      * rewrite Ls. cbn [st_log]. rewrite <- app_assoc, De. reflexivity.
Qed.
End Twin.
