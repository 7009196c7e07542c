From Coq Require Import ZArith List Lia Bool Permutation Sorting.Sorted.
From Verif Require Import Base RxModel RxSpec RxProofs AlohaModel AlohaSpec AlohaProofs CrdsaModel CrdsaSpec.
Import ListNotations.
Open Scope Z_scope.

(** ** Sets *)

Lemma memz_in : forall u l, memz u l = true <-> In u l.
Proof.
  intros. unfold memz. rewrite existsb_exists. split.
  - intros (x & I & E). apply Z.eqb_eq in E. subst; auto.
  - intros I. exists u. split; auto. apply Z.eqb_refl.
Qed.

Lemma received_in : forall u rec, received u rec = true <-> In u (map fst rec).
Proof. intros. apply memz_in. Qed.

Lemma received_not_in : forall u rec, received u rec = false <-> ~ In u (map fst rec).
Proof.
  intros. rewrite <- received_in. destruct (received u rec); split; intros; try congruence. 
Qed.

Lemma insert_uid_in : forall u l x, In x (insert_uid u l) <-> x = u \/ In x l.
Proof.
  induction l as [|y l IH]; intros x; cbn [insert_uid].
  - cbn. intuition.
  - destruct (u <? y); [cbn; intuition|]. destruct (Z.eqb_spec u y).
    + subst. cbn. intuition.
    + cbn [In]. rewrite IH. intuition.
Qed.

Lemma insert_uid_sorted : forall u l, StronglySorted Z.lt l -> StronglySorted Z.lt (insert_uid u l).
Proof.
  induction l as [|y l IH]; intros H; cbn [insert_uid]; [repeat constructor|].
  inversion H; subst. destruct (Z.ltb_spec u y).
  - constructor; auto. constructor; auto. rewrite Forall_forall in *. intros z Hz. specialize (H3 z Hz). lia.
  - destruct (Z.eqb_spec u y); auto. constructor; auto. rewrite Forall_forall in *. intros z Hz.
    apply insert_uid_in in Hz. destruct Hz as [->|Hz]; auto. lia.
Qed.

Lemma sorted_nodup : forall l, StronglySorted Z.lt l -> NoDup l.
Proof.
  induction 1; constructor; auto. intros I. rewrite Forall_forall in H0. specialize (H0 a I). lia.
Qed.

Lemma NoDup_app_intro2 : forall A (a b : list A), NoDup a -> NoDup b -> (forall x, In x a -> ~ In x b) ->
  NoDup (a ++ b).
Proof.
  induction a as [|x a IH]; intros b Ha Hb H; cbn [app]; auto. inversion Ha; subst. constructor.
  - rewrite in_app_iff. intros [I|I]; auto. apply (H x); auto. left; auto.
  - apply IH; auto. intros y I. apply H. right; auto.
Qed.

Lemma app_split_mid : forall A (a b c : list A) x d, a ++ b = c ++ x :: d ->
  (exists a2, a = c ++ x :: a2 /\ d = a2 ++ b) \/ (exists b1, b = b1 ++ x :: d /\ c = a ++ b1).
Proof.
  induction a as [|y a IH]; intros b c x d E.
  - right. exists c. auto.
  - destruct c as [|z c]; cbn [app] in E; injection E as -> E.
    + left. exists a. auto.
    + destruct (IH _ _ _ _ E) as [(a2 & -> & ->)|(b1 & -> & ->)]; [left; exists a2|right; exists b1]; auto.
Qed.

(** ** Cancellation *)

Definition missing (rec : list (Z * Z)) (l : list Z) : list Z := filter (fun u => negb (received u rec)) l.
Definition reduce (rec : list (Z * Z)) (p : period) : period := (fst p, missing rec (snd p)).
Definition is_empty (p : period) : bool := match snd p with [] => true | _ => false end.
Definition remaining (rec : list (Z * Z)) (act : list period) : list period :=
  filter (fun p => negb (is_empty p)) (map (reduce rec) act).

Lemma missing_in : forall rec l u, In u (missing rec l) <-> In u l /\ ~ In u (map fst rec).
Proof.
  intros. unfold missing. rewrite filter_In. rewrite negb_true_iff, received_not_in. tauto.
Qed.

Lemma cancel_pass_ok : forall act rec act1 l, cancel_pass act rec = Ok (act1, l) ->
  act1 = remaining rec act /\
  (forall u, In u l <-> exists p, In p act /\ missing rec (snd p) = [u]).
Proof.
  intros act rec act1 l E. unfold cancel_pass in E.
  destruct (_ <? _)%nat; [discriminate|]. injection E as <- <-. split; [reflexivity|].
  intros u. rewrite in_flat_map. split.
  - intros (q & Iq & Iu). apply in_map_iff in Iq. destruct Iq as (p & <- & Ip). exists p. split; auto.
    cbn [snd] in Iu. fold (missing rec (snd p)) in Iu.
    destruct (missing rec (snd p)) as [|a [|b t]]; try contradiction. destruct Iu as [->|[]]. reflexivity.
  - intros (p & Ip & Em). exists (reduce rec p). split; [apply in_map; auto|].
    unfold reduce. cbn [snd]. rewrite Em. left; auto.
Qed.

Lemma remaining_in : forall rec act q, In q (remaining rec act) <->
  exists p, In p act /\ q = reduce rec p /\ snd q <> [].
Proof.
  intros. unfold remaining. rewrite filter_In, in_map_iff. split.
  - intros ((p & <- & Ip) & E). exists p. repeat split; auto. unfold is_empty in E.
    destruct (snd (reduce rec p)); [discriminate|congruence].
  - intros (p & Ip & -> & N). split; [eauto|]. unfold is_empty. destruct (snd (reduce rec p)); [congruence|reflexivity].
Qed.

Lemma take_recovered_spec : forall now l rec rec' up, take_recovered now l rec = (rec', up) ->
  rec' = rev (map (fun u => (u, now)) up) ++ rec /\ NoDup up /\
  (forall u, In u up <-> In u l /\ ~ In u (map fst rec)).
Proof.
  induction l as [|x l IH]; intros rec rec' up E; cbn [take_recovered] in E.
  - injection E as <- <-. repeat split; try constructor; intros; cbn in *; tauto.
  - destruct (received x rec) eqn:Er.
    + destruct (IH _ _ _ E) as (H1 & H2 & H3). repeat split; auto.
      * apply H3 in H. right; tauto.
      * apply H3 in H. tauto.
      * intros [[->|I] N]; [apply received_in in Er; tauto|]. apply H3; auto.
    + apply received_not_in in Er. destruct (take_recovered now l ((x, now) :: rec)) as [r2 u2] eqn:E2.
      injection E as <- <-. destruct (IH _ _ _ E2) as (H1 & H2 & H3). repeat split.
      * rewrite H1. cbn [map rev]. rewrite <- app_assoc. reflexivity.
      * constructor; auto. intros I. apply H3 in I. cbn in I. tauto.
      * destruct H as [->|I]; [left; auto|]. apply H3 in I. right; tauto.
      * destruct H as [->|I]; [auto|]. apply H3 in I. cbn in I. tauto.
      * intros [[->|I] N]; [left; auto|]. destruct (Z.eq_dec x u); [left; auto|]. right. apply H3.
        split; auto. cbn. tauto.
Qed.

Definition grown (now : Z) (up : list Z) (rec : list (Z * Z)) : list (Z * Z) :=
  rev (map (fun u => (u, now)) up) ++ rec.

Lemma grown_in : forall now up rec u, In u (map fst (grown now up rec)) <-> In u up \/ In u (map fst rec).
Proof.
  intros. unfold grown. rewrite map_app, in_app_iff, map_rev, <- in_rev, map_map, map_id. reflexivity.
Qed.

Lemma grown_app : forall now a b rec, grown now (a ++ b) rec = grown now b (grown now a rec).
Proof. intros. unfold grown. rewrite map_app, rev_app_distr, app_assoc. reflexivity. Qed.

Lemma missing_twice : forall r1 r2 l, (forall u, In u (map fst r1) -> In u (map fst r2)) ->
  missing r2 (missing r1 l) = missing r2 l.
Proof.
  intros r1 r2 l H. induction l as [|x l IH]; [reflexivity|]. unfold missing in *. cbn [filter].
  destruct (received x r1) eqn:E1; cbn [negb].
  - rewrite (proj2 (received_in x r2)) by (apply H; apply received_in; auto). cbn [negb]. auto.
  - cbn [filter]. destruct (received x r2); cbn [negb]; rewrite IH; auto.
Qed.

Lemma remaining_twice : forall r1 r2 act, (forall u, In u (map fst r1) -> In u (map fst r2)) ->
  remaining r2 (remaining r1 act) = remaining r2 act.
Proof.
  intros r1 r2 act H. unfold remaining. induction act as [|p act IH]; [reflexivity|]. cbn [map filter].
  destruct (is_empty (reduce r1 p)) eqn:E1; cbn [negb].
  - assert (is_empty (reduce r2 p) = true) as ->; [|cbn [negb]; auto].
    unfold is_empty, reduce in *. cbn [snd] in *. rewrite <- (missing_twice r1 r2) by auto.
    destruct (missing r1 (snd p)); [reflexivity|discriminate].
  - cbn [map filter]. replace (reduce r2 (reduce r1 p)) with (reduce r2 p).
    + destruct (negb (is_empty (reduce r2 p))); rewrite IH; auto.
    + unfold reduce. cbn [fst snd]. rewrite missing_twice; auto.
Qed.

Lemma cancel_ok : forall fuel now act rec act' rec' up,
  cancel fuel now act rec = Ok (act', rec', up) ->
  rec' = grown now up rec /\ NoDup up /\ (forall u, In u up -> ~ In u (map fst rec)) /\
  act' = remaining rec' act /\
  (forall p, In p act -> forall u, missing rec' (snd p) <> [u]) /\
  (forall u1 u u2, up = u1 ++ u :: u2 ->
     exists p, In p act /\ In u (snd p) /\
       forall v, In v (snd p) -> v <> u -> In v (map fst rec) \/ In v u1).
Proof.
  induction fuel as [|fuel IH]; intros now act rec act' rec' up E; cbn [cancel] in E; [discriminate|].
  destruct (cancel_pass act rec) as [[act1 l]| | |] eqn:Ep; cbn [rbind] in E; try discriminate.
  destruct (cancel_pass_ok _ _ _ _ Ep) as [E1 Hl].
  destruct l as [|x l].
  - injection E as <- <- <-. split; [reflexivity|]. split; [constructor|]. split; [intros u []|].
    split; auto. split.
    + intros p Ip u Em. apply (Hl u). eauto.
    + intros u1 u u2 X. destruct u1; discriminate.
  - remember (x :: l) as xs. destruct (take_recovered now xs rec) as [rec1 up1] eqn:Et.
    destruct (take_recovered_spec _ _ _ _ _ Et) as (T1 & T2 & T3). fold (grown now up1 rec) in T1.
    destruct (cancel fuel now act1 rec1) as [[[act2 rec2] up2]| | |] eqn:Ec; cbn [rbind] in E; try discriminate.
    assert (X : (act2, rec2) = (act', rec') /\ up1 ++ up2 = up) by (destruct xs; [discriminate|]; injection E; intros; subst; auto).
    clear E. destruct X as [X1 <-]. injection X1 as <- <-.
    destruct (IH _ _ _ _ _ _ Ec) as (H1 & H2 & H3 & H4 & H5 & H6).
    assert (Mono : forall u, In u (map fst rec) -> In u (map fst rec2)).
    { intros u I. rewrite H1, T1. rewrite !grown_in. auto. }
    assert (H1' : rec2 = grown now (up1 ++ up2) rec) by (rewrite grown_app, <- T1; auto).
    split; auto. split.
    { apply NoDup_app_intro2; auto. intros u I1 I2. apply (H3 u I2). rewrite T1, grown_in. auto. }
    split.
    { intros u I. apply in_app_iff in I. destruct I as [I|I]; [apply T3 in I; tauto|].
      intros Y. apply (H3 u I). rewrite T1, grown_in. auto. }
    split.
    { rewrite H4, E1. apply remaining_twice. auto. }
    split.
    { intros p Ip u Em.
      assert (Em1 : missing rec2 (missing rec (snd p)) = [u]) by (rewrite missing_twice; auto).
      apply (H5 (reduce rec p)) with (u := u); [|exact Em1].
      rewrite E1. apply remaining_in. exists p. split; auto. split; auto.
      unfold reduce. cbn [snd]. intros Y. rewrite Y in Em1. discriminate. }
    intros u1 u u2 Eu.
    destruct (app_split_mid _ up1 up2 u1 u u2 Eu) as [(a2 & A1 & A2)|(a1 & A1 & A2)].
    + (* recovered in the first pass *)
      assert (Iu : In u xs) by (apply (T3 u); rewrite A1; apply in_or_app; right; left; auto).
      apply Hl in Iu. destruct Iu as (p & Ip & Em). exists p. split; auto.
      assert (Mu : In u (missing rec (snd p))) by (rewrite Em; left; auto).
      apply missing_in in Mu. split; [tauto|]. intros v Iv Nv. left.
      destruct (in_dec Z.eq_dec v (map fst rec)); auto. exfalso. apply Nv.
      assert (Mv : In v (missing rec (snd p))) by (apply missing_in; auto). rewrite Em in Mv.
      destruct Mv as [->|[]]; auto.
    + destruct (H6 a1 u u2 A1) as (q & Iq & Qu & Qv). rewrite E1 in Iq. apply remaining_in in Iq.
      destruct Iq as (p & Ip & -> & _). cbn [reduce snd] in Qu, Qv. exists p. split; auto.
      apply missing_in in Qu. split; [tauto|]. intros v Iv Nv.
      destruct (in_dec Z.eq_dec v (map fst rec)); auto.
      destruct (Qv v) as [I|I]; auto; [apply missing_in; auto| |].
      * rewrite T1, grown_in in I. destruct I; [right|left; auto]. rewrite A2. apply in_or_app; auto.
      * right. rewrite A2. apply in_or_app; auto.
Qed.

(** *** Termination *)

Lemma missing_length : forall rec l, (length (missing rec l) <= length l)%nat.
Proof. intros. unfold missing. induction l; cbn [filter length]; [lia|]. destruct (negb _); cbn [length]; lia. Qed.

Lemma missing_strict : forall rec l u, In u l -> In u (map fst rec) -> (length (missing rec l) < length l)%nat.
Proof.
  intros rec l u I R. unfold missing. induction l as [|x l IH]; [contradiction|]. cbn [filter length].
  pose proof (missing_length rec l) as L. unfold missing in L. destruct I as [->|I].
  - rewrite (proj2 (received_in u rec) R). cbn [negb]. lia.
  - specialize (IH I). destruct (negb _); cbn [length]; lia.
Qed.

Lemma pass_size_reduce : forall rec act, (pass_size (map (reduce rec) act) <= pass_size act)%nat.
Proof.
  intros. induction act as [|p act IH]; cbn [map pass_size fold_right]; [lia|].
  fold (pass_size (map (reduce rec) act)) (pass_size act). pose proof (missing_length rec (snd p)).
  cbn [reduce snd]. lia.
Qed.

Lemma pass_size_strict : forall rec act p u, In p act -> In u (snd p) -> In u (map fst rec) ->
  (pass_size (map (reduce rec) act) < pass_size act)%nat.
Proof.
  intros rec act p u Ip Iu R. induction act as [|q act IH]; [contradiction|].
  cbn [map pass_size fold_right]. fold (pass_size (map (reduce rec) act)) (pass_size act).
  cbn [reduce snd]. destruct Ip as [->|Ip].
  - pose proof (missing_strict rec (snd p) u Iu R). pose proof (pass_size_reduce rec act). lia.
  - specialize (IH Ip). pose proof (missing_length rec (snd q)). lia.
Qed.

Lemma pass_size_remaining : forall rec act, pass_size (remaining rec act) = pass_size (map (reduce rec) act).
Proof.
  intros. unfold remaining. induction (map (reduce rec) act) as [|q l IH]; [reflexivity|]. cbn [filter].
  unfold is_empty at 1. destruct (snd q) eqn:E; cbn [negb pass_size fold_right].
  - fold (pass_size l). rewrite E. exact IH.
  - fold (pass_size (filter (fun p => negb (is_empty p)) l)) (pass_size l). rewrite IH. reflexivity.
Qed.

Lemma cancel_fuel : forall fuel now act rec, (pass_size (map (reduce rec) act) < fuel)%nat ->
  cancel fuel now act rec = UB \/ exists x, cancel fuel now act rec = Ok x.
Proof.
  induction fuel as [|fuel IH]; intros now act rec L; [lia|]. cbn [cancel].
  destruct (cancel_pass act rec) as [[act1 l]| | |] eqn:Ep; cbn [rbind]; auto.
  2,3: unfold cancel_pass in Ep; destruct (_ <? _)%nat; discriminate.
  destruct (cancel_pass_ok _ _ _ _ Ep) as [E1 Hl].
  destruct l as [|x l]; [eauto|].
  destruct (take_recovered now (x :: l) rec) as [rec1 up1] eqn:Et.
  destruct (take_recovered_spec _ _ _ _ _ Et) as (T1 & T2 & T3). fold (grown now up1 rec) in T1.
  destruct (IH now act1 rec1) as [->|(y & ->)]; cbn [rbind]; auto.
  2: destruct y; eauto.
  assert (X : exists p, In p act /\ missing rec (snd p) = [x]) by (apply Hl; left; auto).
  destruct X as (p & Ip & Em).
  assert (pass_size (map (reduce rec1) act1) < pass_size act1)%nat.
  { apply (pass_size_strict rec1 act1 (reduce rec p) x).
    - rewrite E1. apply remaining_in. exists p. split; auto. split; auto. cbn [reduce snd]. rewrite Em. discriminate.
    - cbn [reduce snd]. rewrite Em. left; auto.
    - rewrite T1, grown_in. left. apply T3. split; [left; auto|].
      assert (Mu : In x (missing rec (snd p))) by (rewrite Em; left; auto). apply missing_in in Mu. tauto. }
  rewrite E1 in H at 2. rewrite pass_size_remaining in H. lia.
Qed.

Lemma cancel_enough : forall now act rec,
  cancel (S (pass_size act)) now act rec = UB \/ exists x, cancel (S (pass_size act)) now act rec = Ok x.
Proof. intros. apply cancel_fuel. pose proof (pass_size_reduce rec act). lia. Qed.

(** *** What is recovered *)

Lemma cancel_recoverable : forall fuel now act rec act' rec' up,
  cancel fuel now act rec = Ok (act', rec', up) -> Forall (fun p => NoDup (snd p)) act ->
  forall u, In u up <-> recoverable act (fun v => In v (map fst rec)) u.
Proof.
  intros fuel now act rec act' rec' up E Nd u. destruct (cancel_ok _ _ _ _ _ _ _ E) as (H1 & H2 & H3 & H4 & H5 & H6).
  split.
  - intros Iu X C. apply in_split in Iu. destruct Iu as (u1 & u2 & Eu).
    assert (G : forall n u1 u u2, length u1 = n -> up = u1 ++ u :: u2 -> X u).
    { clear u u1 u2 Eu. induction n as [n IHn] using lt_wf_ind. intros u1 u u2 L Eu.
      destruct (H6 u1 u u2 Eu) as (p & Ip & Iu & Pv). apply (C p u Ip Iu).
      - apply H3. rewrite Eu. apply in_or_app; right; left; auto.
      - intros v Iv Nv. destruct (Pv v Iv Nv) as [|Iv1]; auto. right.
        apply in_split in Iv1. destruct Iv1 as (a & b & ->).
        apply (IHn (length a)) with (u1 := a) (u2 := b ++ u :: u2); auto.
        + rewrite app_length in L. cbn in L. lia.
        + rewrite Eu, <- app_assoc. reflexivity. }
    eapply G; eauto.
  - intros R. apply (R (fun v => In v up)). clear u R. intros p u Ip Iu Ng Pv.
    destruct (in_dec Z.eq_dec u up); auto. exfalso. apply (H5 p Ip u).
    rewrite Forall_forall in Nd. specialize (Nd p Ip).
    assert (Mm : forall v, In v (missing rec' (snd p)) <-> v = u).
    { intros v. rewrite missing_in, H1, grown_in. split.
      - intros [Iv Nv]. destruct (Z.eq_dec v u); auto. destruct (Pv v Iv n0); tauto.
      - intros ->. split; auto. tauto. }
    assert (Nm : NoDup (missing rec' (snd p))) by (apply NoDup_filter; auto).
    destruct (missing rec' (snd p)) as [|a [|b t]].
    + exfalso. apply (Mm u). reflexivity.
    + f_equal. apply Mm. left; auto.
    + exfalso. assert (a = u) by (apply Mm; left; auto). assert (b = u) by (apply Mm; right; left; auto).
      subst. inversion Nm as [|? ? Nin _]; subst. apply Nin. left; auto.
Qed.
