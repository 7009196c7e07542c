(** Consequences: at most once, history, availability. *)
From Coq Require Import ZArith List Lia Bool Permutation Sorting.Sorted.
From Verif Require Import Base RxModel RxSpec RxProofs AlohaModel AlohaSpec AlohaProofs CrdsaModel CrdsaSpec CrdsaProofs CrdsaRun.
Import ListNotations.
Open Scope Z_scope.

Definition count (p : Z) (l : list Z) : nat := length (filter (Z.eqb p) l).

Lemma count_app : forall p a b, count p (a ++ b) = (count p a + count p b)%nat.
Proof. intros. unfold count. rewrite filter_app, app_length. reflexivity. Qed.

Lemma count_not_in : forall p l, ~ In p l -> count p l = 0%nat.
Proof.
  intros p l. unfold count. induction l as [|x l IH]; intros N; [reflexivity|]. cbn [filter].
  destruct (Z.eqb_spec p x); [exfalso; apply N; left; auto|]. apply IH. intros I; apply N; right; auto.
Qed.

Lemma count_nodup : forall p l, NoDup l -> In p l -> count p l = 1%nat.
Proof.
  intros p l N I. apply in_split in I. destruct I as (a & b & ->). rewrite count_app.
  apply NoDup_remove_2 in N. rewrite in_app_iff in N. rewrite count_not_in by tauto.
  unfold count. cbn [filter]. rewrite Z.eqb_refl. cbn [length]. fold (count p b). rewrite count_not_in; tauto.
Qed.

Lemma times_up_snoc : forall p log e, times_up p (log ++ [e]) = (times_up p log + count p (snd e))%nat.
Proof.
  intros. unfold times_up. rewrite map_app, concat_app, filter_app, app_length. cbn. rewrite app_nil_r. reflexivity.
Qed.

(** Where a packet stands: not yet passed up / remembered / passed up and forgotten. *)
Definition fresh_packet (p : Z) (rec : list (Z * Z)) (n : nat) : Prop := ~ In p (map fst rec) /\ n = 0%nat.
Definition known_packet (p : Z) (act : list period) (rec : list (Z * Z)) (n : nat) : Prop :=
  n = 1%nat /\ exists t, In (p, t) rec /\ forall q, In q act -> In p (snd q) -> fst q <= t.
Definition gone_packet (p : Z) (act : list period) (rec : list (Z * Z)) (n : nat) : Prop :=
  n = 1%nat /\ ~ In p (map fst rec) /\ forall q, In q act -> ~ In p (snd q).

Lemma in_fst : forall (p t : Z) rec, In (p, t) rec -> In p (map fst rec).
Proof. intros. apply in_map_iff. exists (p, t). auto. Qed.

(** Cleaning and cancelling at the end of a busy period. *)
Lemma busy_end_effect : forall p now two act rec act2 rec2 fuel act3 rec3 up n,
  0 <= two -> ordered act -> NoDup (map fst rec) ->
  act2 = clean_periods (now - two) act -> rec2 = clean_received (now - two) rec ->
  cancel fuel now act2 rec2 = Ok (act3, rec3, up) ->
  let n' := (n + count p up)%nat in
  (fresh_packet p rec n -> fresh_packet p rec3 n' \/ known_packet p act3 rec3 n') /\
  (known_packet p act rec n -> (forall t, In (p, t) rec -> now - two <= t) -> known_packet p act3 rec3 n') /\
  (known_packet p act rec n -> known_packet p act3 rec3 n' \/ gone_packet p act3 rec3 n') /\
  (gone_packet p act rec n -> gone_packet p act3 rec3 n').
Proof.
  intros p now two act rec act2 rec2 fuel act3 rec3 up n T O N E2 E3 Ec n'.
  destruct (cancel_ok _ _ _ _ _ _ _ Ec) as (K1 & K2 & K3 & K4 & _ & K6).
  rewrite clean_periods_ordered in E2 by auto.
  assert (Act3 : forall q, In q act3 -> exists q0, In q0 act /\ now - two < fst q0 /\ fst q = fst q0 /\
    forall v, In v (snd q) -> In v (snd q0) /\ ~ In v (map fst rec3)).
  { intros q Hq. rewrite K4 in Hq. apply remaining_in in Hq. destruct Hq as (q0 & I0 & -> & _).
    rewrite E2 in I0. apply filter_In in I0. destruct I0 as [I0 L]. apply Z.ltb_lt in L.
    exists q0. repeat split; auto; apply missing_in in H; tauto. }
  assert (Up : forall v, In v up -> exists q0, In q0 act /\ now - two < fst q0 /\ In v (snd q0)).
  { intros v Iv. apply in_split in Iv. destruct Iv as (u1 & u2 & Eu). destruct (K6 u1 v u2 Eu) as (q0 & I0 & Iv & _).
    rewrite E2 in I0. apply filter_In in I0. destruct I0 as [I0 L]. apply Z.ltb_lt in L. eauto. }
  assert (Rec3 : forall v, In v (map fst rec3) <-> In v up \/ In v (map fst rec2)) by (intros; rewrite K1; apply grown_in).
  assert (Rec2 : forall v t, In (v, t) rec2 <-> In (v, t) rec /\ now - two <= t).
  { intros. rewrite E3. unfold clean_received. rewrite filter_In. cbn [snd]. rewrite negb_true_iff, Z.ltb_ge. tauto. }
  assert (Rec2' : In p (map fst rec2) -> In p (map fst rec)).
  { intros I. apply in_map_iff in I. destruct I as ((v, t) & Ev & I). cbn in Ev. subst v. apply Rec2 in I. eapply in_fst; apply I. }
  assert (Uniq : forall t t', In (p, t) rec -> In (p, t') rec -> t = t').
  { clear -N. induction rec as [|e l IH]; intros t t' I1 I2; [contradiction|]. cbn [map] in N. inversion N; subst.
    destruct I1 as [->|I1], I2 as [I2|I2]; try congruence; eauto; exfalso; apply H1; cbn.
    - eapply in_fst; eauto.
    - subst e. eapply in_fst; eauto. }
  (* kept *)
  assert (Kept : forall t, In (p, t) rec -> now - two <= t -> n = 1%nat -> known_packet p act3 rec3 n').
  { intros t I L Hn. assert (I2 : In (p, t) rec2) by (apply Rec2; auto).
    assert (Nu : ~ In p up) by (intros X; apply (K3 p X); eapply in_fst; eauto).
    split; [unfold n'; rewrite count_not_in; auto; lia|]. exists t. split.
    - rewrite K1. unfold grown. apply in_or_app; auto.
    - intros q Hq Ip. exfalso. destruct (Act3 q Hq) as (q0 & _ & _ & _ & F). apply (F p Ip). apply Rec3. right. eapply in_fst; eauto. }
  split; [|split; [|split]].
  - intros [F ->]. destruct (in_dec Z.eq_dec p up) as [Iu|Iu].
    + right. split; [unfold n'; rewrite count_nodup; auto|]. exists now. split.
      * rewrite K1. unfold grown. apply in_or_app; left. apply -> in_rev. apply in_map_iff. eauto.
      * intros q Hq Ip. exfalso. destruct (Act3 q Hq) as (q0 & _ & _ & _ & G). apply (G p Ip). apply Rec3. auto.
    + left. split; [|unfold n'; rewrite count_not_in; auto]. rewrite Rec3. intuition.
  - intros [Hn (t & I & _)] L. apply (Kept t); auto.
  - intros [Hn (t & I & Q)]. destruct (Z_lt_le_dec t (now - two)) as [L|L]; [|left; apply (Kept t); auto]. right.
    assert (Nr : ~ In p (map fst rec2)).
    { intros X. apply in_map_iff in X. destruct X as ((v, t') & Ev & X). cbn in Ev. subst v. apply Rec2 in X.
      destruct X as [X L']. rewrite (Uniq _ _ X I) in L'. lia. }
    assert (Nu : ~ In p up) by (intros X; destruct (Up p X) as (q0 & I0 & L0 & Ip); specialize (Q q0 I0 Ip); lia).
    split; [unfold n'; rewrite count_not_in; auto; lia|]. split; [rewrite Rec3; tauto|].
    intros q Hq Ip. destruct (Act3 q Hq) as (q0 & I0 & L0 & _ & G). destruct (G p Ip) as [G1 _]. specialize (Q q0 I0 G1). lia.
  - intros (Hn & Nr & Q).
    assert (Nu : ~ In p up) by (intros X; destruct (Up p X) as (q0 & I0 & L0 & Ip); apply (Q q0 I0 Ip)).
    split; [unfold n'; rewrite count_not_in; auto; lia|]. split; [rewrite Rec3; tauto|].
    intros q Hq Ip. destruct (Act3 q Hq) as (q0 & I0 & L0 & _ & G). destruct (G p Ip) as [G1 _]. apply (Q q0 I0 G1).
Qed.

Section Once.
Variable below : Z -> Z -> bool.
Variable two : Z.
Variable garbage : Z.
Hypothesis two_nonneg : 0 <= two.
Let mac := crdsa_mac below two.
Let start := rx_init (crdsa_init garbage).

Definition stands (p : Z) (s : rx_state crdsa) : Prop :=
  fresh_packet p (cr_received (st_mac s)) (times_up p (st_log s)) \/
  known_packet p (cr_active (st_mac s)) (cr_received (st_mac s)) (times_up p (st_log s)).
Definition stands_gone (p : Z) (s : rx_state crdsa) : Prop :=
  stands p s \/ gone_packet p (cr_active (st_mac s)) (cr_received (st_mac s)) (times_up p (st_log s)).

Lemma once_start : forall p s s' t u x pw, rx_step mac s (OStart t u x pw) = Some (Ok s') ->
  (stands p s -> stands p s') /\ (stands_gone p s -> stands_gone p s').
Proof.
  intros p s s' t u x pw E. cbn [rx_step] in E. destruct (_ && _); [|discriminate]. inversion E; subst. split; exact (fun H => H).
Qed.

Lemma once_finish : forall p ops s s', rx_run mac start ops = Some (Ok s) -> sane ops -> separate [] ops ->
  rx_step mac s OFinish = Some (Ok s') ->
  (stands p s -> (forall t, In (p, t) (cr_received (st_mac s)) -> st_now s' <= t + two) -> stands p s') /\
  (stands_gone p s -> ~ In p (cr_set (st_mac s)) -> ~ In p (map rx_uid (st_pending s)) -> stands_gone p s').
Proof.
  intros p ops s s' R Sa Se E.
  destruct (cr_inv_holds below two garbage ops s R Sa Se) as (I1 & I2 & I3 & I4 & I5 & I6 & I7 & I8).
  cbn [rx_step] in E. destruct (st_pending s) as [|r l] eqn:Ep; [discriminate|].
  cbn [mac crdsa_mac mac_finish] in E.
  destruct (crdsa_finish below two (st_mac s) r) as [[m' up]| | |] eqn:Ef; cbn [rbind] in E; try discriminate.
  inversion E; subst; clear E. unfold stands, stands_gone, stands. cbn [st_mac st_pending st_now st_log].
  destruct (base_inv_holds _ _ _ _ _ R Sa) as (_ & _ & Fn & _). rewrite Ep in Fn. inversion Fn as [|? ? Hn _]; subst.
  destruct (cr_owner_iff below two garbage ops s r l R Sa Se Ep) as [Ow Of].
  destruct (crdsa_finish_cases _ _ _ _ _ _ Ef) as (rec1 & up1 & C1 & C2 & C). cbv zeta in *.
  rewrite times_up_snoc. cbn [snd].
  set (hc := al_coll (cr_busy (st_mac s)) && below (rx_pow r) (al_power (cr_busy (st_mac s)) - rx_pow r)) in *.
  set (act := cr_active (st_mac s)) in *. set (rec := cr_received (st_mac s)) in *. set (n := times_up p (st_log s)) in *.
  assert (Fa : forall q, In q act -> fst q <= rx_end r).
  { intros q Hq. rewrite Forall_forall in I6. destruct (I6 q Hq). lia. }
  (* the frame itself *)
  assert (N1 : NoDup (map fst rec1)).
  { destruct (in_dec Z.eq_dec (rx_uid r) (map fst rec)) as [Ir|Ir]; [destruct C1 as [-> _]; auto|].
    destruct hc; [destruct C1 as [-> _]; auto|]. destruct C2 as [-> _]; auto. cbn. constructor; auto. }
  assert (Mid : (fresh_packet p rec n -> fresh_packet p rec1 (n + count p up1) \/ known_packet p act rec1 (n + count p up1)) /\
                (known_packet p act rec n -> known_packet p act rec1 (n + count p up1)) /\
                (gone_packet p act rec n -> rx_uid r <> p -> gone_packet p act rec1 (n + count p up1)) /\
                (forall t, In (p, t) rec1 -> In (p, t) rec \/ t = rx_end r)).
  { destruct (bool_dec hc true) as [Hc|Hc].
    - destruct C1 as [-> ->]; auto. unfold count. cbn. rewrite Nat.add_0_r. tauto.
    - apply not_true_is_false in Hc. destruct (in_dec Z.eq_dec (rx_uid r) (map fst rec)) as [Ir|Ir].
      + destruct C1 as [-> ->]; auto. unfold count. cbn. rewrite Nat.add_0_r. tauto.
      + destruct C2 as [-> ->]; auto. destruct (Z.eq_dec p (rx_uid r)) as [->|Np].
        * unfold count. cbn [filter]. rewrite Z.eqb_refl. cbn [length]. split; [|split; [|split]].
          -- intros [_ ->]. right. split; [reflexivity|]. exists (rx_end r). split; [left; auto|]. auto.
          -- intros [_ (t & I & _)]. exfalso. apply Ir. eapply in_fst; eauto.
          -- intros _ X. congruence.
          -- intros t [I|I]; [injection I as <-; auto|auto].
        * rewrite (count_not_in p [rx_uid r]) by (intros [X|[]]; congruence). rewrite Nat.add_0_r.
          split; [|split; [|split]].
          -- intros [F ->]. left. split; auto. cbn. intros [X|X]; [congruence|tauto].
          -- intros [Hn' (t & I & Q)]. split; auto. exists t. split; [right; auto|auto].
          -- intros (Hn' & F & Q) _. split; auto. split; auto. cbn. intros [X|X]; [congruence|tauto].
          -- intros t [I|I]; [injection I; intros; congruence|auto]. }
  destruct Mid as (M1 & M2 & M3 & M4).
  destruct C as [(Nu & -> & ->)|(Uu & act2 & rec2 & act3 & rec3 & up2 & E2 & E3 & Ec & -> & ->)];
    cbn [cr_active cr_received].
  - fold act. split; [intros [F|K] _; auto|]. intros [[F|K]|G] _ Np.
    + left. auto.
    + left. auto.
    + right. apply M3; auto. intros X. apply Np. left. auto.
  - assert (l = []) by tauto. subst l.
    set (act1 := if hc then act ++ [(al_finish (cr_busy (st_mac s)), cr_set (st_mac s))] else act) in *.
    assert (O1 : ordered act1).
    { unfold act1. destruct hc; auto. rewrite (Of eq_refl). apply ordered_snoc; auto. apply Forall_forall. auto. }
    destruct (busy_end_effect p (rx_end r) two act1 rec1 act2 rec2 _ act3 rec3 up2 (n + count p up1) two_nonneg O1 N1 E2 E3 Ec)
      as (B1 & B2 & B3 & B4). cbv zeta in *. rewrite count_app, Nat.add_assoc.
    (* the new collision *)
    assert (K1 : known_packet p act rec1 (n + count p up1) -> ~ In p (cr_set (st_mac s)) -> known_packet p act1 rec1 (n + count p up1)).
    { intros [Hn' (t & I & Q)] Np. split; auto. exists t. split; auto. intros q Hq Ip. unfold act1 in Hq.
      destruct hc; auto. apply in_app_iff in Hq. destruct Hq as [Hq|[<-|[]]]; auto. cbn in Ip. contradiction. }
    assert (K2 : gone_packet p act rec1 (n + count p up1) -> ~ In p (cr_set (st_mac s)) -> gone_packet p act1 rec1 (n + count p up1)).
    { intros (Hn' & F & Q) Np. split; auto. split; auto. intros q Hq Ip. unfold act1 in Hq.
      destruct hc; [|apply (Q q Hq Ip)]. apply in_app_iff in Hq. destruct Hq as [Hq|[<-|[]]]; [apply (Q q Hq Ip)|auto]. }
    split.
    + intros St Lt.
      assert (Lt' : forall t, In (p, t) rec1 -> rx_end r - two <= t).
      { intros t I. destruct (M4 t I) as [I'| ->]; [specialize (Lt t I')|]; lia. }
      destruct St as [F|K].
      * destruct (M1 F) as [F'|K']; [auto|]. right. destruct K' as [Hn' (t & I & Q)].
        (* whatever the collisions say, it is remembered and stays so *)
        assert (known_packet p [] rec1 (n + count p up1)) as K'' by (split; auto; exists t; split; auto; intros ? []).
        clear B1 B3 B4. specialize (Lt' t I).
        destruct (cancel_ok _ _ _ _ _ _ _ Ec) as (Q1 & _ & Q3 & Q4 & _).
        assert (J2 : In (p, t) rec2) by (rewrite E3; apply filter_In; split; auto; cbn; rewrite negb_true_iff, Z.ltb_ge; auto).
        split; [rewrite (count_not_in p up2); [lia|]; intros X; apply (Q3 p X); eapply in_fst; eauto|].
        exists t. split; [rewrite Q1; apply in_or_app; auto|]. intros q Hq Ip. exfalso. rewrite Q4 in Hq.
        apply remaining_in in Hq. destruct Hq as (q0 & _ & -> & _). cbn [reduce snd] in Ip. apply missing_in in Ip.
        apply (proj2 Ip). rewrite Q1, grown_in. right. eapply in_fst; eauto.
      * destruct (M2 K) as [Hn' (t & I & Q)]. right. specialize (Lt' t I).
        destruct (cancel_ok _ _ _ _ _ _ _ Ec) as (Q1 & _ & Q3 & Q4 & _).
        assert (J2 : In (p, t) rec2) by (rewrite E3; apply filter_In; split; auto; cbn; rewrite negb_true_iff, Z.ltb_ge; auto).
        split; [rewrite (count_not_in p up2); [lia|]; intros X; apply (Q3 p X); eapply in_fst; eauto|].
        exists t. split; [rewrite Q1; apply in_or_app; auto|]. intros q Hq Ip. exfalso. rewrite Q4 in Hq.
        apply remaining_in in Hq. destruct Hq as (q0 & _ & -> & _). cbn [reduce snd] in Ip. apply missing_in in Ip.
        apply (proj2 Ip). rewrite Q1, grown_in. right. eapply in_fst; eauto.
    + intros St Nc Np. destruct St as [[F|K]|G].
      * destruct (M1 F) as [F'|K'].
        -- left. apply B1; auto.
        -- destruct (B3 (K1 K' Nc)); auto.
      * destruct (B3 (K1 (M2 K) Nc)); auto.
      * right. apply B4. apply K2; auto. apply M3; auto. intros X. apply Np. left. auto.
Qed.

(** What is remembered was passed up at that time. *)
Lemma remembered_logged : forall ops s, rx_run mac start ops = Some (Ok s) ->
  forall p t, In (p, t) (cr_received (st_mac s)) -> exists a up, In (a, up) (st_log s) /\ In p up /\ rx_end a = t.
Proof.
  apply (rx_run_ind crdsa mac start (fun ops s => forall p t, In (p, t) (cr_received (st_mac s)) ->
    exists a up, In (a, up) (st_log s) /\ In p up /\ rx_end a = t)).
  - intros p t [].
  - intros ops o s s' R IH E p t I. destruct o as [t0 u x pw|]; cbn [rx_step] in E.
    + destruct (_ && _); [|discriminate]. inversion E; subst. apply IH. exact I.
    + destruct (st_pending s) as [|r l]; [discriminate|]. cbn [mac crdsa_mac mac_finish] in E.
      destruct (crdsa_finish below two (st_mac s) r) as [[m' up]| | |] eqn:Ef; cbn [rbind] in E; try discriminate.
      inversion E; subst; clear E. cbn [st_mac st_log] in *.
      destruct (crdsa_finish_cases _ _ _ _ _ _ Ef) as (rec1 & up1 & C1 & C2 & C). cbv zeta in *.
      assert (Old : In (p, t) (cr_received (st_mac s)) -> exists a up0, In (a, up0) (st_log s ++ [(r, up)]) /\ In p up0 /\ rx_end a = t).
      { intros X. destruct (IH p t X) as (a & up0 & Ia & Ip & Ea). exists a, up0. split; auto. apply in_or_app; auto. }
      assert (New : In p up -> t = rx_end r -> exists a up0, In (a, up0) (st_log s ++ [(r, up)]) /\ In p up0 /\ rx_end a = t).
      { intros X ->. exists r, up. split; auto. apply in_or_app; right; left; auto. }
      assert (R1 : In (p, t) rec1 -> In (p, t) (cr_received (st_mac s)) \/ (In p up1 /\ t = rx_end r)).
      { intros X. destruct (bool_dec (al_coll (cr_busy (st_mac s)) && below (rx_pow r) (al_power (cr_busy (st_mac s)) - rx_pow r)) true) as [Hc|Hc].
        - destruct C1 as [-> ->]; auto.
        - apply not_true_is_false in Hc. destruct (in_dec Z.eq_dec (rx_uid r) (map fst (cr_received (st_mac s)))).
          + destruct C1 as [-> ->]; auto.
          + destruct C2 as [-> ->]; auto. destruct X as [X|X]; auto. injection X as <- <-. right. split; auto. left; auto. }
      destruct C as [(Nu & -> & ->)|(Uu & act2 & rec2 & act3 & rec3 & up2 & E2 & E3 & Ec & -> & ->)]; cbn [cr_received] in I.
      * destruct (R1 I) as [|[]]; auto.
      * destruct (cancel_ok _ _ _ _ _ _ _ Ec) as (Q1 & _). rewrite Q1 in I. unfold grown in I.
        apply in_app_iff in I. destruct I as [I|I].
        -- apply in_rev in I. apply in_map_iff in I. destruct I as (v & Ev & Iv). injection Ev as -> <-.
           apply New; auto. apply in_or_app; auto.
        -- rewrite E3 in I. apply filter_In in I. destruct I as [I _]. destruct (R1 I) as [|[]]; auto.
           apply New; auto. apply in_or_app; auto.
Qed.

Lemma step_mono : forall s o s', rx_step mac s o = Some (Ok s') ->
  (forall e, In e (st_log s) -> In e (st_log s')) /\
  (Forall (fun r => st_now s <= rx_end r) (st_pending s) -> st_now s <= st_now s').
Proof.
  intros s o s' E. destruct o as [t u x p|]; cbn [rx_step] in E.
  - destruct (_ && _) eqn:G; [|discriminate]. inversion E; subst. apply andb_true_iff in G. destruct G as [G _].
    apply Z.leb_le in G. cbn. split; auto.
  - destruct (st_pending s) as [|r l]; [discriminate|].
    destruct (mac_finish mac (st_mac s) r) as [[m' up]| | |]; cbn [rbind] in E; try discriminate.
    inversion E; subst. cbn. split.
    + intros e I. apply in_or_app; auto.
    + intros F. inversion F; auto.
Qed.

Lemma once_first_phase : forall p ops s, rx_run mac start ops = Some (Ok s) -> sane ops -> separate [] ops ->
  forall T, st_now s <= T -> (forall a up, In (a, up) (st_log s) -> In p up -> T <= rx_end a + two) -> stands p s.
Proof.
  intros p ops s R. revert ops s R.
  apply (rx_run_ind crdsa mac start (fun ops s => sane ops -> separate [] ops -> forall T, st_now s <= T ->
    (forall a up, In (a, up) (st_log s) -> In p up -> T <= rx_end a + two) -> stands p s)).
  - intros _ _ T _ _. left. split; [intros []|reflexivity].
  - intros ops o s s' R IH E Sa Se T HT Hl. pose proof (sane_app _ _ Sa) as Sa'.
    destruct (separate_app _ _ _ _ _ _ R Se) as [Se' _].
    destruct (base_inv_holds _ _ _ _ _ R Sa') as (_ & _ & Fn & _).
    destruct (step_mono s o s' E) as [Ml Mn]. specialize (Mn Fn).
    assert (St : stands p s) by (apply (IH Sa' Se' T); [lia|eauto]).
    destruct o as [t u x pw|].
    + apply (once_start p s s' t u x pw E). exact St.
    + destruct (once_finish p ops s s' R Sa' Se' E) as [O1 _]. apply O1; auto.
      intros t I. destruct (remembered_logged ops s R p t I) as (a & up & Ia & Ip & <-).
      specialize (Hl a up (Ml _ Ia) Ip). lia.
Qed.

Lemma once_second_phase : forall p ops1 s1, rx_run mac start ops1 = Some (Ok s1) -> st_pending s1 = [] ->
  sane ops1 -> separate [] ops1 -> stands p s1 ->
  forall ops2 s2, rx_run mac s1 ops2 = Some (Ok s2) -> sane (ops1 ++ ops2) -> separate [] (ops1 ++ ops2) ->
  replicas p ops2 = 0%nat ->
  stands_gone p s2 /\ ~ In p (cr_set (st_mac s2)) /\ ~ In p (map rx_uid (st_pending s2)).
Proof.
  intros p ops1 s1 R1 Em Sa1 Se1 St. induction ops2 as [|o ops2 IH] using rev_ind; intros s2 R2 Sa Se Nr.
  - inversion R2; subst. split; [left; auto|].
    destruct (cr_inv_holds below two garbage ops1 s2 R1 Sa1 Se1) as (_ & I2 & _). rewrite (I2 Em), Em. cbn. auto.
  - apply rx_run_snoc in R2. destruct R2 as (s & R2 & E).
    rewrite app_assoc in Sa, Se. pose proof (sane_app _ _ Sa) as Sa'.
    assert (Rs : rx_run mac start (ops1 ++ ops2) = Some (Ok s)) by (rewrite rx_run_app, R1; exact R2).
    destruct (separate_app _ _ _ _ _ _ Rs Se) as [Se' _].
    unfold replicas in Nr. rewrite receptions_app, filter_app, app_length in Nr.
    destruct (IH s R2 Sa' Se') as (St' & Nc & Np); [unfold replicas; lia|].
    destruct o as [t u x pw|].
    + split; [apply (once_start p s s2 t u x pw E); auto|].
      assert (Hu : u <> p). { intros ->. cbn [receptions flat_map app filter rx_uid] in Nr. rewrite Z.eqb_refl in Nr. cbn in Nr. lia. }
      cbn [rx_step] in E. destruct (_ && _); [|discriminate]. inversion E; subst.
      cbn [st_mac st_pending mac crdsa_mac mac_start crdsa_start cr_set rx_uid]. split.
      * rewrite insert_uid_in. intuition congruence.
      * intros I. apply in_map_iff in I. destruct I as (r & Er & Ir). apply schedule_in in Ir. destruct Ir as [->|Ir]; [cbn in Er; congruence|].
        apply Np. rewrite <- Er. apply in_map; auto.
    + destruct (once_finish p (ops1 ++ ops2) s s2 Rs Sa' Se' E) as [_ O2]. split; [auto|].
      cbn [rx_step] in E. destruct (st_pending s) as [|r l]; [discriminate|]. cbn [mac crdsa_mac mac_finish] in E.
      destruct (crdsa_finish below two (st_mac s) r) as [[m' up]| | |] eqn:Ef; cbn [rbind] in E; try discriminate.
      inversion E; subst; clear E. cbn [st_mac st_pending map] in *.
      destruct (crdsa_finish_cases _ _ _ _ _ _ Ef) as (rec1 & up1 & C1 & C2 & C).
      split; [|intros I; apply Np; right; auto].
      destruct C as [(_ & -> & _)|(_ & act2 & rec2 & act3 & rec3 & up2 & _ & _ & _ & -> & _)]; cbn [cr_set]; auto.
Qed.

Lemma stands_at_most_once : forall p s, stands_gone p s -> (times_up p (st_log s) <= 1)%nat.
Proof. intros p s [[[_ H]|[H _]]|[H _]]; lia. Qed.

End Once.
