(** Consequences: what is stored, and when cancellation is free of undefined behaviour. *)
From Coq Require Import ZArith List Lia Bool Permutation Sorting.Sorted.
From Verif Require Import Base RxModel RxSpec RxProofs AlohaModel AlohaSpec AlohaProofs CrdsaModel CrdsaSpec CrdsaProofs CrdsaRun.
Import ListNotations.
Open Scope Z_scope.

(** *** Counting stored collisions *)

Definition cnt (f : period -> bool) (act : list period) : nat := length (filter f act).
Definition occ (u : Z) (act : list period) : nat := cnt (fun q => memz u (snd q)) act.

Lemma cnt_le : forall f g act, (forall q, In q act -> f q = true -> g q = true) -> (cnt f act <= cnt g act)%nat.
Proof.
  intros f g act. unfold cnt. induction act as [|q act IH]; intros H; [cbn; lia|]. cbn [filter].
  assert (I : (length (filter f act) <= length (filter g act))%nat) by (apply IH; intros; apply H; auto; right; auto).
  specialize (H q (or_introl eq_refl)). destruct (f q); [rewrite H by auto; cbn [length]; lia|].
  destruct (g q); cbn [length]; lia.
Qed.

Lemma cnt_disjoint : forall f g h act, (forall q, In q act -> f q = true -> g q = true -> False) ->
  (forall q, In q act -> f q = true -> h q = true) -> (forall q, In q act -> g q = true -> h q = true) ->
  (cnt f act + cnt g act <= cnt h act)%nat.
Proof.
  intros f g h act. unfold cnt. induction act as [|q act IH]; intros D F G; [cbn; lia|]. cbn [filter].
  assert (I : (length (filter f act) + length (filter g act) <= length (filter h act))%nat)
    by (apply IH; intros; [eapply D|apply F|apply G]; eauto; right; auto).
  specialize (D q (or_introl eq_refl)). specialize (F q (or_introl eq_refl)). specialize (G q (or_introl eq_refl)).
  destruct (f q), (g q); try (exfalso; auto; fail); try rewrite F by auto; try rewrite G by auto; cbn [length]; try lia.
  destruct (h q); cbn [length]; lia.
Qed.

Lemma cnt_pos : forall f act q, In q act -> f q = true -> (1 <= cnt f act)%nat.
Proof.
  intros f act q I F. unfold cnt. assert (H : In q (filter f act)) by (apply filter_In; auto).
  destruct (filter f act); [contradiction|cbn; lia].
Qed.

Lemma cnt_app : forall f a b, cnt f (a ++ b) = (cnt f a + cnt f b)%nat.
Proof. intros. unfold cnt. rewrite filter_app, app_length. reflexivity. Qed.

Lemma cnt_filter_le : forall f g act, (cnt f (filter g act) <= cnt f act)%nat.
Proof.
  intros. unfold cnt. induction act as [|q act IH]; [cbn; lia|]. cbn [filter].
  destruct (g q); cbn [filter]; destruct (f q); cbn [length]; lia.
Qed.

Lemma cnt_remaining : forall f g rec act, (forall q, In q act -> snd (reduce rec q) <> [] -> f (reduce rec q) = true -> g q = true) ->
  (cnt f (remaining rec act) <= cnt g act)%nat.
Proof.
  intros f g rec act. unfold cnt, remaining. induction act as [|q act IH]; intros H; [cbn; lia|]. cbn [map filter].
  assert (I : (length (filter f (filter (fun p => negb (is_empty p)) (map (reduce rec) act))) <= length (filter g act))%nat)
    by (apply IH; intros; apply H; auto; right; auto).
  specialize (H q (or_introl eq_refl)). unfold is_empty at 1. destruct (snd (reduce rec q)) eqn:E; cbn [negb].
  - destruct (g q); cbn [length]; lia.
  - cbn [filter]. destruct (f (reduce rec q)).
    + rewrite H by (auto; discriminate). cbn [length]. lia.
    + destruct (g q); cbn [length]; lia.
Qed.

Lemma occ_remaining : forall u rec act, (occ u (remaining rec act) <= occ u act)%nat.
Proof.
  intros. apply cnt_remaining. intros q _ _ M. apply memz_in in M. cbn [reduce snd] in M. apply missing_in in M.
  apply memz_in. tauto.
Qed.

(** *** A pass in which at most one collision empties and at most one shrinks *)

Definition all_rec (rec : list (Z * Z)) (q : period) : bool := forallb (fun u => received u rec) (snd q).
Definition some_rec (rec : list (Z * Z)) (q : period) : bool := existsb (fun u => received u rec) (snd q).
Definition shrinks (rec : list (Z * Z)) (q : period) : bool := some_rec rec q && negb (all_rec rec q).

Definition quiet (act : list period) (rec : list (Z * Z)) : Prop :=
  (forall u, (occ u act <= 2)%nat) /\ Forall (fun q => NoDup (snd q)) act /\
  (cnt (all_rec rec) act <= 1)%nat /\ (cnt (shrinks rec) act <= 1)%nat /\
  (forall q, In q act -> some_rec rec q = false -> (2 <= length (snd q))%nat).

Lemma all_rec_missing : forall rec q, all_rec rec q = true <-> missing rec (snd q) = [].
Proof.
  intros. unfold all_rec, missing. induction (snd q) as [|u l IH]; cbn [forallb filter]; [tauto|].
  destruct (received u rec); cbn [negb andb]; [exact IH|]. split; discriminate.
Qed.

Lemma no_rec_missing : forall rec q, some_rec rec q = false -> missing rec (snd q) = snd q.
Proof.
  intros rec q. unfold some_rec, missing. induction (snd q) as [|u l IH]; cbn [existsb filter]; [auto|].
  destruct (received u rec); cbn [negb orb]; [discriminate|]. intros H. f_equal. auto.
Qed.

Lemma pass_empty_count : forall rec act,
  length (filter is_empty (map (reduce rec) act)) = cnt (all_rec rec) act.
Proof.
  intros. unfold cnt. induction act as [|q act IH]; [reflexivity|]. cbn [map filter].
  unfold is_empty at 1. destruct (all_rec rec q) eqn:E.
  - apply all_rec_missing in E. cbn [reduce snd]. rewrite E. cbn [length]. rewrite IH. reflexivity.
  - cbn [reduce snd]. destruct (missing rec (snd q)) eqn:Em; [|exact IH].
    apply all_rec_missing in Em. congruence.
Qed.

Definition singles (l : list period) : list Z := flat_map (fun p => match snd p with [u] => [u] | _ => [] end) l.

Lemma singles_count : forall rec act, (forall q, In q act -> some_rec rec q = false -> (2 <= length (snd q))%nat) ->
  (length (singles (map (reduce rec) act)) <= cnt (shrinks rec) act)%nat.
Proof.
  intros rec act. unfold cnt. induction act as [|q act IH]; intros H; [cbn; lia|]. cbn [map singles flat_map filter].
  fold (singles (map (reduce rec) act)). rewrite app_length.
  assert (I : (length (singles (map (reduce rec) act)) <= length (filter (shrinks rec) act))%nat)
    by (apply IH; intros; apply H; auto; right; auto).
  specialize (H q (or_introl eq_refl)). cbn [reduce snd].
  destruct (missing rec (snd q)) as [|u [|v t]] eqn:Em; cbn [length].
  - destruct (shrinks rec q); cbn [length]; lia.
  - assert (shrinks rec q = true) as ->; [|cbn [length]; lia]. unfold shrinks.
    destruct (some_rec rec q) eqn:Es; cbn [andb].
    + destruct (all_rec rec q) eqn:Ea; [|reflexivity]. apply all_rec_missing in Ea. congruence.
    + rewrite (no_rec_missing _ _ Es) in Em. rewrite Em in H. cbn in H. specialize (H eq_refl). lia.
  - destruct (shrinks rec q); cbn [length]; lia.
Qed.

Lemma quiet_pass : forall act rec, quiet act rec ->
  exists l, cancel_pass act rec = Ok (remaining rec act, l) /\ (length l <= 1)%nat /\
    l = singles (map (reduce rec) act).
Proof.
  intros act rec (Q1 & Q2 & Q3 & Q4 & Q5). unfold cancel_pass.
  change (filter _ (map _ act)) with (filter is_empty (map (reduce rec) act)) at 1.
  rewrite pass_empty_count. replace (1 <? cnt (all_rec rec) act)%nat with false
    by (symmetry; apply Nat.ltb_ge; lia).
  eexists. split; [reflexivity|]. split; [|reflexivity].
  etransitivity; [|exact Q4]. exact (singles_count rec act Q5).
Qed.

Lemma some_rec_true : forall rec q, some_rec rec q = true <-> exists u, In u (snd q) /\ In u (map fst rec).
Proof.
  intros. unfold some_rec. rewrite existsb_exists. split; intros (u & A & B); exists u; split; auto; apply received_in; auto.
Qed.

Lemma quiet_next : forall act rec w now, quiet act rec -> singles (map (reduce rec) act) = [w] ->
  quiet (remaining rec act) ((w, now) :: rec).
Proof.
  intros act rec w now (Q1 & Q2 & Q3 & Q4 & Q5) Es.
  assert (Hs : forall q, In q act -> forall v, missing rec (snd q) = [v] -> v = w).
  { intros q Iq v Em. assert (I : In v (singles (map (reduce rec) act))).
    { unfold singles. apply in_flat_map. exists (reduce rec q). split; [apply in_map; auto|]. cbn [reduce snd]. rewrite Em. left; auto. }
    rewrite Es in I. destruct I as [->|[]]; auto. }
  assert (Hw : exists q, In q act /\ missing rec (snd q) = [w]).
  { assert (I : In w (singles (map (reduce rec) act))) by (rewrite Es; left; auto).
    unfold singles in I. apply in_flat_map in I. destruct I as (x & Ix & Iw). apply in_map_iff in Ix.
    destruct Ix as (q & <- & Iq). exists q. split; auto. cbn [reduce snd] in Iw.
    destruct (missing rec (snd q)) as [|a [|b t]]; try contradiction. destruct Iw as [->|[]]; auto. }
  assert (Rem : forall x, In x (remaining rec act) -> exists q, In q act /\ x = reduce rec q /\ snd x <> [] /\ NoDup (snd x) /\
    forall v, In v (snd x) -> ~ In v (map fst rec)).
  { intros x Ix. apply remaining_in in Ix. destruct Ix as (q & Iq & -> & Nx). exists q. repeat split; auto.
    - cbn [reduce snd]. apply NoDup_filter. rewrite Forall_forall in Q2. auto.
    - intros v Iv. cbn [reduce snd] in Iv. apply missing_in in Iv. tauto. }
  assert (AllW : forall x, In x (remaining rec act) -> all_rec ((w, now) :: rec) x = true -> snd x = [w]).
  { intros x Ix A. destruct (Rem x Ix) as (q & Iq & _ & Nx & Nd & Nr). unfold all_rec in A. rewrite forallb_forall in A.
    assert (G : forall v, In v (snd x) -> v = w).
    { intros v Iv. specialize (A v Iv). apply received_in in A. destruct A as [A|A]; [cbn in A; auto|]. exfalso. apply (Nr v Iv A). }
    destruct (snd x) as [|a [|b t]]; [congruence| |].
    - rewrite (G a (or_introl eq_refl)). reflexivity.
    - exfalso. inversion Nd; subst. apply H1. rewrite (G a (or_introl eq_refl)), (G b (or_intror (or_introl eq_refl))). left; auto. }
  split; [|split; [|split; [|split]]].
  - intros u. pose proof (occ_remaining u rec act). specialize (Q1 u). lia.
  - apply Forall_forall. intros x Ix. destruct (Rem x Ix) as (q & _ & _ & _ & Nd & _). auto.
  - etransitivity; [|exact Q4]. apply cnt_remaining. intros q Iq Nq A.
    assert (Ix : In (reduce rec q) (remaining rec act)) by (apply remaining_in; eauto).
    pose proof (AllW _ Ix A) as E. cbn [reduce snd] in E. unfold shrinks.
    destruct (some_rec rec q) eqn:Esr; cbn [andb].
    + destruct (all_rec rec q) eqn:Ea; [|reflexivity]. apply all_rec_missing in Ea. congruence.
    + specialize (Q5 q Iq Esr). rewrite (no_rec_missing _ _ Esr) in E. rewrite E in Q5. cbn in Q5. lia.
  - destruct Hw as (q & Iq & Em).
    assert (Ix : In (reduce rec q) (remaining rec act)) by (apply remaining_in; exists q; repeat split; auto; cbn [reduce snd]; rewrite Em; discriminate).
    assert (P : (1 <= cnt (all_rec ((w, now) :: rec)) (remaining rec act))%nat).
    { apply cnt_pos with (q := reduce rec q); auto. unfold all_rec. cbn [reduce snd]. rewrite Em. cbn [forallb].
      rewrite (proj2 (received_in _ _)); [reflexivity|left; reflexivity]. }
    assert (D : (cnt (all_rec ((w, now) :: rec)) (remaining rec act) + cnt (shrinks ((w, now) :: rec)) (remaining rec act) <= occ w (remaining rec act))%nat).
    { apply cnt_disjoint.
      - intros x _ A B. unfold shrinks in B. rewrite A in B. rewrite andb_false_r in B. discriminate.
      - intros x Ix' A. rewrite (AllW x Ix' A). apply memz_in. left; auto.
      - intros x Ix' B. unfold shrinks in B. apply andb_true_iff in B. destruct B as [B _]. apply some_rec_true in B.
        destruct B as (u & Iu & [<-|Ir]); [apply memz_in; auto|]. exfalso. destruct (Rem x Ix') as (_ & _ & _ & _ & _ & Nr). apply (Nr u Iu Ir). }
    pose proof (occ_remaining w rec act). specialize (Q1 w). lia.
  - intros x Ix Sx. destruct (Rem x Ix) as (q & Iq & -> & Nx & Nd & Nr). cbn [reduce snd] in *.
    destruct (missing rec (snd q)) as [|a [|b t]] eqn:Em; [congruence| |cbn; lia]. exfalso.
    rewrite (Hs q Iq a Em) in *. assert (some_rec ((w, now) :: rec) (reduce rec q) = true); [|congruence].
    apply some_rec_true. exists w. cbn [reduce snd]. rewrite Em. split; left; auto. exact (Hs q Iq a Em).
Qed.

Lemma quiet_cancel : forall fuel now act rec, quiet act rec -> cancel fuel now act rec <> UB.
Proof.
  induction fuel as [|fuel IH]; intros now act rec Q; cbn [cancel]; [discriminate|].
  destruct (quiet_pass act rec Q) as (l & -> & L & El). cbn [rbind].
  destruct l as [|w [|v t]]; [discriminate| |cbn in L; lia].
  cbn [take_recovered]. destruct (received w rec) eqn:Er.
  - exfalso. assert (I : In w (singles (map (reduce rec) act))) by (rewrite <- El; left; auto).
    unfold singles in I. apply in_flat_map in I. destruct I as (x & Ix & Iw). apply in_map_iff in Ix.
    destruct Ix as (q & <- & Iq). cbn [reduce snd] in Iw. destruct (missing rec (snd q)) as [|a [|b t]] eqn:Em; try contradiction.
    destruct Iw as [->|[]]. assert (M : In w (missing rec (snd q))) by (rewrite Em; left; auto). apply missing_in in M.
    apply received_in in Er. tauto.
  - pose proof (IH now (remaining rec act) ((w, now) :: rec) (quiet_next act rec w now Q (eq_sym El))) as H.
    destruct (cancel fuel now (remaining rec act) ((w, now) :: rec)) as [[x y]| | |]; cbn [rbind]; congruence.
Qed.

Section Safe.
Variable below : Z -> Z -> bool.
Variable two : Z.
Variable garbage : Z.
Let mac := crdsa_mac below two.
Let start := rx_init (crdsa_init garbage).

(** *** The busy-period record, without ties *)

Lemma total_snoc : forall l r, total (l ++ [r]) = total l + rx_pow r.
Proof. intros. rewrite total_app. cbn. lia. Qed.

Lemma busy_record : forall ops s, rx_run mac start ops = Some (Ok s) -> sane ops -> separate [] ops -> finish_first [] ops ->
  st_pending s <> [] ->
  al_power (cr_busy (st_mac s)) = total (busy_frames [] [] ops) /\
  al_coll (cr_busy (st_mac s)) = (1 <? Z.of_nat (length (busy_frames [] [] ops))).
Proof.
  intros ops s R. revert ops s R.
  apply (rx_run_ind crdsa mac start (fun ops s => sane ops -> separate [] ops -> finish_first [] ops -> st_pending s <> [] ->
    al_power (cr_busy (st_mac s)) = total (busy_frames [] [] ops) /\
    al_coll (cr_busy (st_mac s)) = (1 <? Z.of_nat (length (busy_frames [] [] ops))))).
  - intros _ _ _ X. cbn in X. congruence.
  - intros ops o s s' R IH E Sa Se Ff Ne. pose proof (sane_app _ _ Sa) as Sa'.
    destruct (separate_app _ _ _ _ _ _ R Se) as [Se' _].
    destruct (finish_first_app ops [] o crdsa mac start s eq_refl R Ff) as [Ff' Fo].
    specialize (IH Sa' Se' Ff').
    rewrite (busy_frames_snoc crdsa mac ops o start s [] R : busy_frames [] [] (ops ++ [o]) = _).
    pose proof (cr_owner below two garbage ops s R Sa' Se') as Ow.
    change (busy_frames (st_pending start) [] ops) with (busy_frames [] [] ops).
    destruct o as [t u x p|]; cbn [rx_step] in E.
    + destruct (_ && _); [|discriminate]. inversion E; subst; clear E.
      cbn [st_mac mac crdsa_mac mac_start crdsa_start cr_busy busy_frames]. set (r := mkRx u t (t + x) p).
      destruct (st_pending s) as [|q0 l0] eqn:Ep.
      * cbn in Ow. destruct Ow as [O1 O2]. unfold aloha_start. rewrite O1. cbn [andb negb orb al_power al_coll].
        rewrite O2. split; [cbn; lia|reflexivity].
      * destruct (IH ltac:(discriminate)) as [H1 H2].
        assert (Up : exists o, al_uid (cr_busy (st_mac s)) = Some (rx_uid o) /\ al_finish (cr_busy (st_mac s)) = rx_end o /\ In o (q0 :: l0)).
        { unfold last_of in Ow. destruct (rev (q0 :: l0)) as [|o l1] eqn:Er1.
          - cbn [rev] in Er1. apply app_eq_nil in Er1. destruct Er1; discriminate.
          - exists o. destruct Ow. split; auto. split; auto. apply in_rev. rewrite Er1. left; auto. }
        destruct Up as (o & U1 & U2 & U3). cbn [finish_first] in Fo. destruct Fo as [Fo _].
        assert (To : t < rx_end o) by (rewrite Forall_forall in Fo; auto).
        unfold aloha_start. rewrite U1, U2. change (rx_start r) with t. rewrite (proj2 (Z.ltb_lt _ _) To).
        cbn [andb negb orb al_power al_coll al_finish]. rewrite total_snoc, <- H1.
        replace (1 <? Z.of_nat (length (busy_frames [] [] ops ++ [r]))) with true.
        -- destruct (_ <=? _); cbn; auto.
        -- symmetry. apply Z.ltb_lt. rewrite app_length. cbn [length].
           destruct (cr_inv_holds below two garbage ops s R Sa' Se') as (_ & _ & _ & I4 & _).
           rewrite Ep in I4. specialize (I4 q0 (or_introl eq_refl)). destruct (busy_frames [] [] ops); [contradiction|cbn [length]; lia].
    + destruct (st_pending s) as [|r l] eqn:Ep; [discriminate|].
      cbn [mac crdsa_mac mac_finish] in E.
      destruct (crdsa_finish below two (st_mac s) r) as [[m' up]| | |] eqn:Ef; cbn [rbind] in E; try discriminate.
      inversion E; subst; clear E. cbn [st_mac st_pending busy_frames] in *.
      destruct (cr_owner_iff below two garbage ops s r l R Sa' Se' Ep) as [Ow' _].
      destruct (crdsa_finish_cases _ _ _ _ _ _ Ef) as (rec1 & up1 & _ & _ & C). cbv zeta in *.
      destruct C as [(_ & -> & _)|(Uu & _)]; [|exfalso; tauto]. cbn [cr_busy]. apply IH. discriminate.
Qed.

Lemma busy_frames_pos : forall ops s, rx_run mac start ops = Some (Ok s) ->
  Forall (fun r => 0 < rx_pow r) (receptions ops) -> Forall (fun r => 0 < rx_pow r) (busy_frames [] [] ops).
Proof.
  intros ops s R. revert ops s R.
  apply (rx_run_ind crdsa mac start (fun ops s => Forall (fun r => 0 < rx_pow r) (receptions ops) -> Forall (fun r => 0 < rx_pow r) (busy_frames [] [] ops))).
  - constructor.
  - intros ops o s s' R IH E P. rewrite receptions_app, Forall_app in P. destruct P as [P1 P2]. specialize (IH P1).
    rewrite (busy_frames_snoc crdsa mac ops o start s [] R : busy_frames [] [] (ops ++ [o]) = _).
    change (busy_frames (st_pending start) [] ops) with (busy_frames [] [] ops).
    destruct o as [t u x p|]; cbn [busy_frames]; [|auto]. inversion P2; subst.
    destruct (st_pending s); [constructor; auto|]. apply Forall_app. auto.
Qed.

Lemma total_pos_ge : forall l r, Forall (fun r => 0 < rx_pow r) l -> In r l -> (2 <= length l)%nat -> 0 < total l - rx_pow r.
Proof.
  intros l r P I L. apply in_split in I. destruct I as (a & b & ->). rewrite total_app. cbn [total fold_right]. fold (total b).
  apply Forall_app in P. destruct P as [Pa Pb]. inversion Pb; subst.
  assert (G : forall l, Forall (fun r => 0 < rx_pow r) l -> 0 <= total l /\ (l <> [] -> 0 < total l)).
  { clear. induction 1; cbn [total fold_right]; [split; [lia|congruence]|]. fold (total l). destruct IHForall. split; intros; lia. }
  destruct (G a Pa) as [A1 A2]. destruct (G b H2) as [B1 B2]. rewrite app_length in L. cbn [length] in L.
  destruct a; [destruct b; [cbn in L; lia|]|]; [assert (0 < total (r0 :: b)) by (apply B2; discriminate); lia|].
  assert (0 < total (r0 :: a)) by (apply A2; discriminate). lia.
Qed.

(** Without capture the verdict is the collision flag. *)
Lemma no_capture_verdict : (forall p i, 0 < i -> below p i = true) ->
  forall ops s r l, rx_run mac start ops = Some (Ok s) -> sane ops -> separate [] ops -> finish_first [] ops ->
  Forall (fun r => 0 < rx_pow r) (receptions ops) -> st_pending s = r :: l ->
  al_coll (cr_busy (st_mac s)) && below (rx_pow r) (al_power (cr_busy (st_mac s)) - rx_pow r)
    = al_coll (cr_busy (st_mac s)) /\
  (l <> [] -> al_coll (cr_busy (st_mac s)) = true).
Proof.
  intros NC ops s r l R Sa Se Ff Po Ep.
  destruct (busy_record ops s R Sa Se Ff) as [H1 H2]; [rewrite Ep; discriminate|].
  destruct (cr_inv_holds below two garbage ops s R Sa Se) as (_ & _ & _ & I4 & _). rewrite Ep in I4.
  pose proof (busy_frames_pos ops s R Po) as Pb. split.
  - destruct (al_coll (cr_busy (st_mac s))) eqn:Ec; [|reflexivity]. cbn [andb]. apply NC. rewrite H1.
    apply total_pos_ge; auto; [apply I4; left; auto|]. symmetry in H2. apply Z.ltb_lt in H2. lia.
  - intros Nl. rewrite H2. apply Z.ltb_lt. destruct l as [|y l]; [congruence|].
    assert (N : NoDup [r; y]).
    { pose proof (separate_pending _ _ _ _ _ R Se) as N. rewrite Ep in N. cbn [map] in N. inversion N; subst.
      constructor; [|constructor; [intros []|constructor]]. intros [->|[]]. apply H3. left; auto. }
    assert (L : (length [r; y] <= length (busy_frames [] [] ops))%nat).
    { apply NoDup_incl_length; auto. intros z [<-|[<-|[]]]; apply I4; [left|right; left]; auto. }
    cbn [length] in L. lia.
Qed.

(** *** At most two replicas of each packet *)

Definition two_inv (ops : list rx_op) (s : rx_state crdsa) : Prop :=
  (forall u, (occ u (cr_active (st_mac s)) + (if memz u (cr_set (st_mac s)) then 1 else 0) <= replicas u ops)%nat) /\
  (forall q, In q (cr_active (st_mac s)) -> (2 <= length (snd q))%nat /\
     forall v, In v (snd q) -> ~ In v (map fst (cr_received (st_mac s)))) /\
  (al_coll (cr_busy (st_mac s)) = true -> (2 <= length (cr_set (st_mac s)))%nat).

Lemma two_distinct_length : forall (l : list Z) a b, In a l -> In b l -> a <> b -> (2 <= length l)%nat.
Proof.
  intros l a b Ia Ib N. assert (L : (length [a; b] <= length l)%nat); [|exact L]. apply NoDup_incl_length.
  - constructor; [|constructor; [intros []|constructor]]. intros [<-|[]]; auto.
  - intros z [<-|[<-|[]]]; auto.
Qed.

Lemma length_insert : forall u l, (length l <= length (insert_uid u l))%nat.
Proof. induction l as [|x l IH]; cbn [insert_uid length]; [lia|]. destruct (u <? x); [cbn [length]; lia|]. destruct (u =? x); cbn [length]; lia. Qed.

Lemma two_start : forall ops s s' t u x p, rx_run mac start ops = Some (Ok s) -> sane ops -> separate [] (ops ++ [OStart t u x p]) ->
  two_inv ops s -> rx_step mac s (OStart t u x p) = Some (Ok s') -> two_inv (ops ++ [OStart t u x p]) s'.
Proof.
  intros ops s s' t u x p R Sa Se (T1 & T2 & T3) E. destruct (separate_app _ _ _ _ _ _ R Se) as [Se' [So _]].
  pose proof (cr_owner below two garbage ops s R Sa Se') as Ow.
  destruct (cr_inv_holds below two garbage ops s R Sa Se') as (I1 & _ & I3 & I4 & _).
  cbn [rx_step] in E. destruct (_ && _); [|discriminate]. inversion E; subst; clear E. unfold two_inv.
  cbn [st_mac mac crdsa_mac mac_start crdsa_start cr_busy cr_set cr_active cr_received rx_uid].
  set (r := mkRx u t (t + x) p). split; [|split].
  - intros v. unfold replicas. rewrite receptions_app, filter_app, app_length.
    cbn [receptions flat_map app filter rx_uid]. fold (receptions ops). specialize (T1 v). unfold replicas in T1.
    destruct (memz v (insert_uid u (cr_set (st_mac s)))) eqn:M.
    + apply memz_in, insert_uid_in in M. destruct M as [->|M].
      * rewrite Z.eqb_refl. cbn [length]. destruct (memz u (cr_set (st_mac s))); lia.
      * rewrite (proj2 (memz_in _ _) M) in T1. destruct (u =? v); cbn [length]; lia.
    + destruct (memz v (cr_set (st_mac s))), (u =? v); cbn [length]; lia.
  - exact T2.
  - intros Hc. destruct (al_coll (cr_busy (st_mac s))) eqn:Eo.
    + specialize (T3 eq_refl). pose proof (length_insert u (cr_set (st_mac s))). lia.
    + destruct (st_pending s) as [|q0 l0] eqn:Ep.
      * exfalso. cbn in Ow. destruct Ow as [O1 O2]. unfold aloha_start in Hc. rewrite O1 in Hc. cbn in Hc. congruence.
      * apply (two_distinct_length _ (rx_uid q0) u).
        -- apply insert_uid_in. right. apply I3; [discriminate|]. apply in_map. apply I4. left; auto.
        -- apply insert_uid_in. left; auto.
        -- rewrite Forall_forall in So. apply So. left; auto.
Qed.

Lemma two_quiet : forall act (rec rec2 : list (Z * Z)) w, (forall u, (occ u act <= 2)%nat) -> Forall (fun q => NoDup (snd q)) act ->
  (forall q, In q act -> (2 <= length (snd q))%nat /\ forall v, In v (snd q) -> ~ In v (map fst rec)) ->
  (occ w act <= 1)%nat -> (forall v, In v (map fst rec2) -> v = w \/ In v (map fst rec)) -> quiet act rec2.
Proof.
  intros act rec rec2 w Q1 Q2 Q3 Q4 Q5.
  assert (G : forall q, In q act -> all_rec rec2 q = true -> False).
  { intros q Iq A. destruct (Q3 q Iq) as [L N]. unfold all_rec in A. rewrite forallb_forall in A.
    rewrite Forall_forall in Q2. specialize (Q2 q Iq).
    assert (E : forall v, In v (snd q) -> v = w).
    { intros v Iv. specialize (A v Iv). apply received_in in A. destruct (Q5 v A); auto. exfalso. apply (N v Iv). auto. }
    destruct (snd q) as [|a [|b t]]; cbn in L; try lia. inversion Q2; subst. apply H1.
    rewrite (E a (or_introl eq_refl)), (E b (or_intror (or_introl eq_refl))). left; auto. }
  split; auto. split; auto. split; [|split].
  - replace (cnt (all_rec rec2) act) with O; [lia|]. symmetry. unfold cnt. destruct (filter (all_rec rec2) act) as [|q l] eqn:E; [reflexivity|].
    exfalso. assert (I : In q (filter (all_rec rec2) act)) by (rewrite E; left; auto). apply filter_In in I. destruct I. eauto.
  - etransitivity; [|exact Q4]. apply cnt_le. intros q Iq S. unfold shrinks in S. apply andb_true_iff in S. destruct S as [S _].
    apply some_rec_true in S. destruct S as (u & Iu & Ir). destruct (Q5 u Ir) as [->|X]; [apply memz_in; auto|].
    exfalso. destruct (Q3 q Iq) as [_ N]. apply (N u Iu X).
  - intros q Iq _. apply (Q3 q Iq).
Qed.

Lemma push_quiet : forall act (rec : list (Z * Z)) q, (forall u, (occ u (act ++ [q]) <= 2)%nat) -> Forall (fun q => NoDup (snd q)) (act ++ [q]) ->
  (forall q, In q act -> (2 <= length (snd q))%nat /\ forall v, In v (snd q) -> ~ In v (map fst rec)) ->
  (2 <= length (snd q))%nat -> quiet (act ++ [q]) rec.
Proof.
  intros act rec q Q1 Q2 Q3 L.
  assert (N : forall f : period -> bool, (forall x, f x = true -> snd x = [] \/ some_rec rec x = true) -> cnt f act = O).
  { intros f F. unfold cnt. destruct (filter f act) as [|x l] eqn:E; [reflexivity|]. exfalso.
    assert (I : In x (filter f act)) by (rewrite E; left; auto). apply filter_In in I. destruct I as [I Fx].
    destruct (Q3 x I) as [L' N]. destruct (F x Fx) as [X|X].
    - rewrite X in L'. cbn in L'. lia.
    - apply some_rec_true in X. destruct X as (u & Iu & Ir). apply (N u Iu Ir). }
  split; auto. split; auto. split; [|split].
  - rewrite cnt_app. rewrite N.
    + unfold cnt. cbn [filter]. destruct (all_rec rec q); cbn [length]; lia.
    + intros x A. unfold all_rec in A. destruct (snd x) as [|u l] eqn:Ex; auto. right. apply some_rec_true.
      exists u. rewrite Ex. split; [left; auto|]. cbn [forallb] in A. apply andb_true_iff in A. destruct A as [A _]. apply received_in; auto.
  - rewrite cnt_app. rewrite N.
    + unfold cnt. cbn [filter]. destruct (shrinks rec q); cbn [length]; lia.
    + intros x A. unfold shrinks in A. apply andb_true_iff in A. tauto.
  - intros x Ix _. apply in_app_iff in Ix. destruct Ix as [Ix|[<-|[]]]; [apply (Q3 x Ix)|auto].
Qed.

Lemma occ_clean : forall u limit act, (occ u (clean_periods limit act) <= occ u act)%nat.
Proof.
  intros. destruct (clean_periods_suffix limit act) as (l1 & E). rewrite E at 2. unfold occ. rewrite cnt_app. lia.
Qed.

Lemma clean_periods_incl : forall limit act, incl (clean_periods limit act) act.
Proof. intros limit act x I. destruct (clean_periods_suffix limit act) as (l1 & E). rewrite E. apply in_or_app; auto. Qed.

Lemma clean_periods_snoc : forall limit act q, clean_periods limit (act ++ [q]) = [] \/
  exists a, clean_periods limit (act ++ [q]) = a ++ [q] /\ incl a act.
Proof.
  induction act as [|x act IH]; intros q; cbn [clean_periods app].
  - destruct (limit <? fst q); [right; exists []; split; auto; intros ? []|left; auto].
  - destruct (limit <? fst x).
    + right. exists (x :: act). split; auto. apply incl_refl.
    + destruct (IH q) as [->|(a & -> & I)]; [auto|]. right. exists a. split; auto. intros y Iy. right. auto.
Qed.

Lemma quiet_nil : forall rec, quiet [] rec.
Proof. intros. unfold quiet, occ, cnt. cbn. repeat split; auto; try lia; intros q []. Qed.

Lemma two_finish : forall ops s, (forall p i, 0 < i -> below p i = true) ->
  rx_run mac start ops = Some (Ok s) -> sane ops -> separate [] ops -> finish_first [] ops ->
  Forall (fun r => 0 < rx_pow r) (receptions ops) -> (forall u, (replicas u ops <= 2)%nat) ->
  two_inv ops s -> forall o, rx_step mac s OFinish = Some o -> exists s', o = Ok s' /\ two_inv ops s'.
Proof.
  intros ops s NC R Sa Se Ff Po Rp (T1 & T2 & T3) o E.
  destruct (cr_inv_holds below two garbage ops s R Sa Se) as (I1 & I2 & I3 & I4 & I5 & I6 & I7 & I8).
  assert (Nd : Forall (fun q : period => NoDup (snd q)) (cr_active (st_mac s)))
    by (eapply Forall_impl; [|exact I6]; cbn; intros q [_ S]; apply sorted_nodup; auto).
  cbn [rx_step] in E. destruct (st_pending s) as [|r l] eqn:Ep; [discriminate|].
  destruct (no_capture_verdict NC ops s r l R Sa Se Ff Po Ep) as [V1 V2].
  destruct (cr_owner_iff below two garbage ops s r l R Sa Se Ep) as [Ow Of].
  cbn [mac crdsa_mac mac_finish] in E. injection E as <-.
  assert (Nub : crdsa_finish below two (st_mac s) r <> UB).
  { unfold crdsa_finish. rewrite V1.
    destruct (al_uid (cr_busy (st_mac s))) as [o|] eqn:Eo; [|discriminate].
    destruct (Z.eqb_spec o (rx_uid r)) as [->|]; [|discriminate]. assert (l = []) by tauto. subst l.
    set (rec1 := if negb (al_coll (cr_busy (st_mac s))) && _ then _ else _).
    match goal with |- context [cancel ?f ?n ?a ?b] => assert (Q : quiet a b) end.
    2: { match goal with |- context [cancel ?f ?n ?a ?b] => pose proof (quiet_cancel f n a b Q) as H;
         destruct (cancel f n a b) as [[x y]| | |]; cbn [rbind]; congruence end. }
    set (rec2 := clean_received (rx_end r - two) rec1).
    destruct (al_coll (cr_busy (st_mac s))) eqn:Ec.
    - assert (Hrec : forall v, In v (map fst rec2) -> In v (map fst (cr_received (st_mac s)))).
      { intros v Iv. unfold rec2, clean_received in Iv. apply in_map_iff in Iv. destruct Iv as (e & <- & Ie).
        apply filter_In in Ie. unfold rec1 in Ie. cbn [negb andb] in Ie. apply in_map. tauto. }
      set (q := (al_finish (cr_busy (st_mac s)), cr_set (st_mac s))).
      assert (Oc : forall u, (occ u (cr_active (st_mac s) ++ [q]) <= 2)%nat).
      { intros u. unfold occ. rewrite cnt_app. specialize (T1 u). specialize (Rp u). unfold occ in T1.
        unfold cnt at 2. cbn [filter snd q]. destruct (memz u (cr_set (st_mac s))); cbn [length] in *; lia. }
      change (quiet (clean_periods (rx_end r - two) (cr_active (st_mac s) ++ [q])) rec2).
      pose proof (occ_clean) as OC. destruct (clean_periods_snoc (rx_end r - two) (cr_active (st_mac s)) q) as [E0|(a & E0 & Ia)].
      + refine (eq_ind_r (fun x => quiet x rec2) _ E0). apply quiet_nil.
      + assert (Oc' : forall u, (occ u (a ++ [q]) <= 2)%nat) by (intros u; refine (eq_ind _ (fun x => (occ u x <= 2)%nat) _ _ E0); etransitivity; [apply OC|apply Oc]).
        refine (eq_ind_r (fun x => quiet x rec2) _ E0). apply push_quiet; auto.
        * apply Forall_forall. intros x Ix. apply in_app_iff in Ix. destruct Ix as [Ix|[<-|[]]].
          -- rewrite Forall_forall in Nd. apply Nd. auto.
          -- cbn. apply sorted_nodup; auto.
        * intros x Ix. destruct (T2 x (Ia x Ix)) as [L N]. split; auto. intros v Iv Ir. apply (N v Iv). auto.
    - assert (Hrec : forall v, In v (map fst rec2) -> v = rx_uid r \/ In v (map fst (cr_received (st_mac s)))).
      { intros v Iv. unfold rec2, clean_received in Iv. apply in_map_iff in Iv. destruct Iv as (e & <- & Ie).
        apply filter_In in Ie. destruct Ie as [Ie _]. unfold rec1 in Ie. cbn [negb andb] in Ie.
        destruct (received (rx_uid r) (cr_received (st_mac s))); cbn [negb] in Ie; [right; apply in_map; auto|].
        destruct Ie as [<-|Ie]; [left; auto|right; apply in_map; auto]. }
      apply (two_quiet _ (cr_received (st_mac s)) _ (rx_uid r)); auto.
      + intros u. etransitivity; [apply occ_clean|]. specialize (T1 u). specialize (Rp u). lia.
      + apply Forall_forall. intros x Ix. rewrite Forall_forall in Nd. apply Nd. eapply clean_periods_incl; eauto.
      + intros x Ix. apply T2. eapply clean_periods_incl; eauto.
      + etransitivity; [apply occ_clean|]. specialize (T1 (rx_uid r)). specialize (Rp (rx_uid r)).
        assert (In (rx_uid r) (cr_set (st_mac s))) by (apply I3; [discriminate|]; apply in_map; apply I4; left; auto).
        rewrite (proj2 (memz_in _ _) H) in T1. lia. }
  destruct (crdsa_finish below two (st_mac s) r) as [[m' up]| | |] eqn:Ef; cbn [rbind].
  2,3: exfalso; clear -Ef; unfold crdsa_finish in Ef;
    destruct (match al_uid (cr_busy (st_mac s)) with Some o => o =? rx_uid r | None => false end); [|discriminate];
    match type of Ef with context [cancel (S (pass_size ?a)) ?n ?a ?b] => destruct (cancel_enough n a b) as [X|((x & y) & X)]; rewrite X in Ef; cbn [rbind] in Ef; discriminate end.
  2: congruence.
  eexists. split; [reflexivity|]. unfold two_inv. cbn [st_mac].
  destruct (crdsa_finish_cases _ _ _ _ _ _ Ef) as (rec1 & up1 & C1 & C2 & C). cbv zeta in *. rewrite V1 in *.
  destruct C as [(Nu & -> & _)|(Uu & act2 & rec2 & act3 & rec3 & up2 & E2 & E3 & Ec & -> & _)];
    cbn [cr_busy cr_set cr_active cr_received al_coll].
  - assert (Hc : al_coll (cr_busy (st_mac s)) = true) by (apply V2; tauto). destruct C1 as [-> _]; auto.
  - assert (l = []) by tauto. subst l.
    destruct (cancel_ok _ _ _ _ _ _ _ Ec) as (K1 & K2 & K3 & K4 & K5 & _). split; [|split; [|discriminate]].
    + intros u. cbn [memz existsb]. rewrite Nat.add_0_r. rewrite K4. etransitivity; [apply occ_remaining|]. rewrite E2.
      etransitivity; [apply occ_clean|]. specialize (T1 u). destruct (al_coll (cr_busy (st_mac s))); [|lia].
      unfold occ in *. rewrite cnt_app. unfold cnt at 2. cbn [filter snd]. destruct (memz u (cr_set (st_mac s))); cbn [length] in *; lia.
    + intros q Iq. rewrite K4 in Iq. apply remaining_in in Iq. destruct Iq as (p & Ip & -> & Np). cbn [reduce snd] in *. split.
      * specialize (K5 p Ip). destruct (missing rec3 (snd p)) as [|a [|b t]]; [congruence|exfalso; eapply K5; eauto|cbn; lia].
      * intros v Iv. apply missing_in in Iv. tauto.
Qed.

Lemma replicas_app : forall u a b, replicas u (a ++ b) = (replicas u a + replicas u b)%nat.
Proof. intros. unfold replicas. rewrite receptions_app, filter_app, app_length. reflexivity. Qed.

Lemma separate_prefix : forall a pend b, separate pend (a ++ b) -> separate pend a.
Proof.
  induction a as [|[t u x p|] a IH]; intros pend b H; cbn [app separate] in *; auto.
  - destruct H. split; eauto.
  - eauto.
Qed.

Lemma finish_first_prefix : forall a pend b, finish_first pend (a ++ b) -> finish_first pend a.
Proof.
  induction a as [|[t u x p|] a IH]; intros pend b H; cbn [app finish_first] in *; auto.
  - destruct H. split; eauto.
  - eauto.
Qed.

Lemma two_holds : (forall p i, 0 < i -> below p i = true) -> forall ops o, rx_run mac start ops = Some o ->
  sane ops -> separate [] ops -> finish_first [] ops ->
  Forall (fun r => 0 < rx_pow r) (receptions ops) -> (forall u, (replicas u ops <= 2)%nat) ->
  exists s, o = Ok s /\ two_inv ops s.
Proof.
  intros NC. induction ops as [|x ops IH] using rev_ind; intros o R Sa Se Ff Po Rp.
  - inversion R; subst. eexists. split; [reflexivity|]. unfold two_inv, occ, cnt, replicas. cbn.
    repeat split; auto; try lia; try contradiction; discriminate.
  - rewrite rx_run_app in R.
    assert (Sa' : sane ops) by (eapply sane_app; eauto).
    assert (Se' : separate [] ops) by (eapply separate_prefix; eauto).
    assert (Ff' : finish_first [] ops) by (eapply finish_first_prefix; eauto).
    assert (Po' : Forall (fun r => 0 < rx_pow r) (receptions ops)) by (rewrite receptions_app, Forall_app in Po; tauto).
    assert (Rp' : forall u, (replicas u ops <= 2)%nat) by (intros u; specialize (Rp u); rewrite replicas_app in Rp; lia).
    destruct (rx_run mac start ops) as [[s| | |]|] eqn:Er.
    + destruct (IH (Ok s) eq_refl Sa' Se' Ff' Po' Rp') as (s0 & E0 & T).
      injection E0 as <-. cbn [rx_run] in R. destruct x as [t u tx p|].
      * destruct (rx_step mac s (OStart t u tx p)) as [[s'| | |]|] eqn:Es.
        -- inversion R; subst. exists s'. split; auto. eapply two_start; eauto.
        -- cbn [rx_step] in Es. destruct (_ && _); discriminate.
        -- cbn [rx_step] in Es. destruct (_ && _); discriminate.
        -- cbn [rx_step] in Es. destruct (_ && _); discriminate.
        -- discriminate.
      * destruct (rx_step mac s OFinish) as [o'|] eqn:Es; [|discriminate].
        destruct (two_finish ops s NC Er Sa' Se' Ff' Po' Rp' T o' Es) as (s' & -> & T'). inversion R; subst.
        exists s'. split; auto. unfold two_inv in *. destruct T' as (A & B & C). repeat split; auto; try (apply B; auto).
        -- intros u. rewrite replicas_app. specialize (A u). lia.
    + destruct (IH Assert eq_refl) as (s & X & _); auto; discriminate.
    + destruct (IH Abort eq_refl) as (s & X & _); auto; discriminate.
    + destruct (IH UB eq_refl) as (s & X & _); auto; discriminate.
    + discriminate.
Qed.

End Safe.
