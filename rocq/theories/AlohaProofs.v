From Coq Require Import ZArith List Lia Bool Permutation Sorting.Sorted.
From Verif Require Import Base RxModel RxSpec RxProofs AlohaModel AlohaSpec.
Import ListNotations.
Open Scope Z_scope.

(** ** Slot boundaries *)

Lemma quotient_low_pos : forall now d, 0 < d < 2 ^ 63 -> (0 < quotient_low now d <-> now mod d <> 0).
Proof.
  intros now d D. unfold quotient_low. pose proof (Z.mod_pos_bound now d ltac:(lia)) as B.
  set (r := now mod d) in *. clearbody r. split; intros H.
  - intros ->. rewrite Z.mul_0_l, Z.div_0_l in H; lia.
  - apply Z.div_str_pos. assert (2 ^ 63 < 2 ^ 64) by reflexivity. nia.
Qed.

Lemma next_boundary_to_next : forall d now, 0 < d < 2 ^ 63 ->
  next_boundary d now (now + time_to_next d now).
Proof.
  intros d now D. unfold time_to_next.
  rewrite (proj2 (Z.ltb_lt 0 d)) by lia.
  pose proof (Z.mod_pos_bound now d ltac:(lia)) as B.
  pose proof (Z.div_mod now d ltac:(lia)) as E.
  destruct (Z.ltb_spec 0 (quotient_low now d)) as [L|L].
  - apply quotient_low_pos in L; auto. unfold quotient_high.
    replace (now + ((now / d + 1) * d - now)) with ((now / d + 1) * d) by lia.
    set (q := now / d) in *. set (r := now mod d) in *. clearbody q r. split; [|split].
    + exists (q + 1). reflexivity.
    + nia.
    + intros k K. destruct (Z_le_gt_dec (q + 1) k) as [G|G]; [apply Z.mul_le_mono_nonneg_r; lia|]. exfalso. assert (k * d <= q * d) by (apply Z.mul_le_mono_nonneg_r; lia). lia.
  - assert (Hz : now mod d = 0).
    { destruct (Z.eq_dec (now mod d) 0); auto. exfalso.
      assert (0 < quotient_low now d) by (apply quotient_low_pos; auto). lia. }
    rewrite Z.add_0_r. split; [|split].
    + exists (now / d). lia.
    + lia.
    + intros; lia.
Qed.

Lemma next_boundary_unique : forall d now t t', next_boundary d now t -> next_boundary d now t' -> t = t'.
Proof.
  intros d now t t' ((k & ->) & L & M) ((k' & ->) & L' & M').
  specialize (M k' L'). specialize (M' k L). lia.
Qed.

Lemma next_boundary_wait : forall d now t, 0 < d -> next_boundary d now t -> t - now < d.
Proof.
  intros d now t D ((k & ->) & L & M).
  destruct (Z_lt_le_dec ((k - 1) * d) now); [lia|]. specialize (M (k - 1) l). lia.
Qed.

(** ** Interval facts *)

Lemma overlap_same_busy : forall all a b, In a all -> In b all -> overlap a b -> same_busy all a b.
Proof.
  intros all a b Ia Ib [O1 O2]. split; [exact O2|]. intros t [T1 T2].
  destruct (Z_lt_le_dec (rx_start a) t).
  - exists a. split; auto.
  - exists b. split; auto. lia.
Qed.

Lemma same_busy_overlap : forall all a b, rx_start a < rx_end a -> rx_start b < rx_end b ->
  b <> a -> In b all -> same_busy all a b -> exists c, In c all /\ c <> a /\ overlap a c.
Proof.
  intros all a b Sa Sb N Ib [S C].
  destruct (Z_lt_le_dec (rx_start b) (rx_start a)) as [L|L].
  - destruct (C (rx_start a)) as (r & Ir & R); [lia|]. exists r. split; auto. split.
    + intros ->. lia.
    + unfold overlap. lia.
  - exists b. repeat split; auto. lia.
Qed.

(** ** The receiver *)

Section Receiver.
Variable below : Z -> Z -> bool.
Variable garbage : Z.
Let mac := aloha_mac below.
Let start := rx_init (aloha_init garbage).

Definition last_of (l : list reception) : option reception :=
  match rev l with [] => None | r :: _ => Some r end.

Lemma last_of_snoc : forall l r, last_of (l ++ [r]) = Some r.
Proof. intros. unfold last_of. rewrite rev_app_distr. reflexivity. Qed.

(** In every schedule: the busy period belongs to the reception that will end last. *)
Definition owner_inv (s : rx_state aloha) : Prop :=
  match last_of (st_pending s) with
  | None => al_uid (st_mac s) = None /\ al_coll (st_mac s) = false
  | Some r => al_uid (st_mac s) = Some (rx_uid r) /\ al_finish (st_mac s) = rx_end r
  end.

Lemma owner_start : forall s o s', StronglySorted by_end (st_pending s) -> owner_inv s ->
  rx_step mac s o = Some (Ok s') -> (exists t u x p, o = OStart t u x p) -> owner_inv s'.
Proof.
  intros s o s' So I E (t & u & x & p & ->). cbn [rx_step] in E.
  destruct (_ && _); [|discriminate]. inversion E; subst; clear E.
  unfold owner_inv in *. cbn [st_pending st_mac mac aloha_mac mac_start].
  set (r := mkRx u t (t + x) p). unfold aloha_start.
  change (rx_start r) with t. change (rx_end r) with (t + x). change (rx_uid r) with u. change (rx_pow r) with p.
  destruct (st_pending s) as [|y l'] eqn:Ep using rev_ind.
  - unfold last_of in I. cbn [rev] in I. destruct I as [-> I2]. cbn. auto.
  - clear IHl'. rewrite last_of_snoc in I. destruct I as [I1 I2]. rewrite I1.
    cbn [andb negb orb]. 
    assert (F : al_finish (if t <? al_finish (st_mac s)
      then mkAloha (Some (rx_uid y)) (al_finish (st_mac s)) true (al_power (st_mac s) + p)
      else st_mac s) = rx_end y) by (destruct (t <? _); auto).
    rewrite F. destruct (Z.leb_spec (rx_end y) (t + x)) as [L|L].
    + rewrite schedule_last.
      * rewrite last_of_snoc. cbn. auto.
      * clear -So L. apply Forall_app. split; [|constructor; auto].
        apply Forall_forall. intros z Hz.
        assert (by_end z y); [|unfold by_end in *; cbn; lia].
        clear -So Hz. induction l'; [contradiction|]. cbn in So. inversion So; subst.
        destruct Hz as [<-|Hz]; auto. rewrite Forall_forall in H2. apply H2. apply in_or_app; right; left; auto.
    + destruct (schedule_before r l' y So) as (l2 & ->); [cbn; lia|].
      rewrite last_of_snoc. split; [|exact F]. destruct (t <? _); auto.
Qed.

Lemma owner_finish : forall s s', NoDup (map rx_uid (st_pending s)) -> owner_inv s ->
  rx_step mac s OFinish = Some (Ok s') -> owner_inv s'.
Proof.
  intros s s' N I E. cbn [rx_step] in E. destruct (st_pending s) as [|r l] eqn:Ep; [discriminate|].
  cbn [mac aloha_mac mac_finish aloha_finish rbind] in E. inversion E; subst; clear E.
  unfold owner_inv in *. cbn [st_pending st_mac]. rewrite Ep in I.
  destruct l as [|y l'] eqn:El using rev_ind.
  - unfold last_of in *. cbn [rev app] in *. destruct I as [I1 I2]. rewrite I1, Z.eqb_refl. cbn. auto.
  - clear IHl'. rewrite last_of_snoc. change (r :: l' ++ [y]) with ((r :: l') ++ [y]) in I.
    rewrite last_of_snoc in I. destruct I as [I1 I2]. rewrite I1.
    destruct (Z.eqb_spec (rx_uid y) (rx_uid r)) as [X|X]; [exfalso|auto].
    cbn [map] in N. inversion N; subst. apply H1. rewrite map_app. apply in_or_app. right. left. auto.
Qed.

Lemma owner_holds : forall ops s, rx_run mac start ops = Some (Ok s) -> sane ops -> separate [] ops -> owner_inv s.
Proof.
  intros ops s R. revert ops s R.
  apply (rx_run_ind aloha mac start (fun ops s => sane ops -> separate [] ops -> owner_inv s)).
  - intros _ _. cbn. auto.
  - intros ops o s s' R IH E Sa D. pose proof (sane_app _ _ Sa).
    destruct (separate_app _ _ _ _ _ _ R D) as [H0 _].
    pose proof (base_inv_holds _ _ _ _ _ R H) as B. specialize (IH H H0).
    destruct o as [t u x p|].
    + eapply owner_start; eauto. apply B.
    + eapply owner_finish; eauto. eapply separate_pending; eauto.
Qed.

(** Two states that cannot be told apart. *)
Definition same_mac (a b : aloha) : Prop :=
  al_uid a = al_uid b /\ al_coll a = al_coll b /\
  (al_uid a <> None -> al_finish a = al_finish b /\ al_power a = al_power b) /\
  (al_uid a = None -> al_coll a = false).

Lemma same_start : forall a b r, same_mac a b -> same_mac (aloha_start a r) (aloha_start b r).
Proof.
  intros [ua fa ca pa] [ub fb cb pb] r (U & C & F & N). cbn [al_uid al_finish al_coll al_power] in *. subst ub cb.
  unfold aloha_start. cbn [al_uid al_finish al_coll al_power]. destruct ua as [u|].
  - destruct F as [-> ->]; [discriminate|]. cbn [andb negb orb].
    destruct (rx_start r <? fb); cbn [al_finish al_uid al_coll al_power];
      destruct (fb <=? rx_end r); unfold same_mac; cbn [al_uid al_coll al_finish al_power];
      (split; [|split; [|split]]; auto; try discriminate).
  - cbn [andb negb orb]. unfold same_mac. cbn [al_uid al_coll al_finish al_power].
    split; [|split; [|split]]; auto; try discriminate.
Qed.

Lemma same_finish : forall a b r m up, same_mac a b -> aloha_finish below a r = Ok (m, up) ->
  exists m', aloha_finish below b r = Ok (m', up) /\ same_mac m m'.
Proof.
  intros [ua fa ca pa] [ub fb cb pb] r m up (U & C & F & N) E.
  cbn [al_uid al_finish al_coll al_power] in *. subst ub cb.
  unfold aloha_finish in *. cbn [al_uid al_finish al_coll al_power] in *. inversion E; subst; clear E.
  eexists. split.
  - f_equal. f_equal. destruct ua as [u|].
    + destruct F as [-> ->]; [discriminate|]. reflexivity.
    + rewrite (N eq_refl). reflexivity.
  - destruct ua as [u|].
    + destruct F as [-> ->]; [discriminate|]. destruct (u =? rx_uid r); unfold same_mac; cbn; tauto.
    + unfold same_mac. cbn. tauto.
Qed.

Lemma same_run : forall ops m1 m2 t1 t2 l1 l2 pend s1,
  same_mac m1 m2 -> rx_run mac (mkSt t1 m1 pend l1) ops = Some (Ok s1) -> t2 <= t1 ->
  exists s2 new, rx_run mac (mkSt t2 m2 pend l2) ops = Some (Ok s2) /\
    st_log s1 = l1 ++ new /\ st_log s2 = l2 ++ new.
Proof.
  induction ops as [|o ops IH]; intros m1 m2 t1 t2 l1 l2 pend s1 Sm R T.
  - inversion R; subst. exists (mkSt t2 m2 pend l2), []. cbn. rewrite !app_nil_r. auto.
  - cbn [rx_run] in *. destruct o as [t u x p|]; cbn [rx_step st_now st_pending st_mac st_log] in *.
    + destruct (Z.leb_spec t1 t) as [L|L]; cbn [andb] in *; [|discriminate].
      rewrite (proj2 (Z.leb_le t2 t)) by lia. cbn [andb].
      destruct (forallb _ pend); [|discriminate].
      eapply IH in R; [exact R| |lia]. apply same_start; auto.
    + destruct pend as [|r l]; [discriminate|].
      cbn [mac aloha_mac mac_finish] in *.
      destruct (aloha_finish below m1 r) as [[m up]| | |] eqn:E; cbn [rbind] in R; try discriminate.
      destruct (same_finish m1 m2 r m up Sm E) as (m' & E' & Sm'). rewrite E'. cbn [rbind].
      eapply (IH m m' (rx_end r) (rx_end r) (l1 ++ [(r, up)]) (l2 ++ [(r, up)])) in R; eauto; [|lia].
      destruct R as (s2 & new & R2 & G1 & G2). exists s2, ((r, up) :: new). split; auto.
      rewrite G1, G2, <- !app_assoc. auto.
Qed.

(** ** Without ties *)

Definition busy_inv (ops : list rx_op) (s : rx_state aloha) (bp : list reception) : Prop :=
  let all := receptions ops in
  NoDup bp /\ incl bp all /\ incl (st_pending s) bp /\
  (st_pending s = [] -> bp = []) /\
  (forall b p, In b bp -> In p (st_pending s) -> rx_start b < rx_end p) /\
  (bp <> [] ->
     al_power (st_mac s) = total bp /\
     al_coll (st_mac s) = (1 <? Z.of_nat (length bp)) /\
     exists t0,
       (forall b, In b bp -> t0 <= rx_start b) /\
       (exists b, In b bp /\ rx_start b = t0) /\
       (forall r, In r all -> In r bp \/ rx_end r <= t0) /\
       (forall p t, In p (st_pending s) -> t0 < t < rx_end p ->
          exists r, In r all /\ rx_start r < t < rx_end r)) /\
  Forall (fun e => judged below all (fst e) (snd e)) (st_log s).

Lemma total_app : forall a b, total (a ++ b) = total a + total b.
Proof. induction a; intros; cbn [total fold_right app]; [reflexivity|]. fold (total (a0 ++ b)) (total a0). rewrite IHa. lia. Qed.

Lemma total_perm : forall a b, Permutation a b -> total a = total b.
Proof. induction 1; cbn [total fold_right]; try fold (total l) in *; try fold (total l') in *; lia. Qed.

Lemma judged_later : forall all new a up, judged below all a up -> rx_end a <= rx_start new ->
  judged below (all ++ [new]) a up.
Proof.
  intros all new a up (others & (N & O) & J) L. exists others. split; auto. split; auto.
  intros b. rewrite O, in_app_iff. split.
  - intros (I & Ne & S1 & S2). split; auto. split; auto. split; auto.
    intros t T. destruct (S2 t T) as (r & Ir & R). exists r. split; auto. apply in_or_app; auto.
  - intros ([I|[<-|[]]] & Ne & S1 & S2); [|lia]. split; auto. split; auto. split; auto.
    intros t T. destruct (S2 t T) as (r & Ir & R). apply in_app_iff in Ir.
    destruct Ir as [Ir|[<-|[]]]; [exists r; auto|lia].
Qed.

Lemma busy_start : forall ops s s' t u x p, sane (ops ++ [OStart t u x p]) -> Forall (fun r => rx_uid r <> u) (st_pending s) ->
  base_inv ops s -> owner_inv s -> (exists bp, busy_inv ops s bp) ->
  Forall (fun r => t < rx_end r) (st_pending s) ->
  rx_step mac s (OStart t u x p) = Some (Ok s') -> exists bp, busy_inv (ops ++ [OStart t u x p]) s' bp.
Proof.
  intros ops s s' t u x p Sa D (P & So & Fn & Fs & Fl) Ow (bp & N & Ib & Ip & Em & Lt & Ne & J) T E.
  set (r := mkRx u t (t + x) p).
  assert (Er : receptions (ops ++ [OStart t u x p]) = receptions ops ++ [r]) by (rewrite receptions_app; reflexivity).
  assert (Sx : 0 < x).
  { unfold sane in Sa. rewrite Er, Forall_app in Sa. destruct Sa as [_ Sa]. inversion Sa; subst. cbn in H1. lia. }
  cbn [rx_step] in E. destruct (_ && _) eqn:G; [|discriminate].
  inversion E; subst s'; clear E. apply andb_true_iff in G. destruct G as [G _]. apply Z.leb_le in G.
  assert (Nr : ~ In r (receptions ops)).
  { intros I. apply (Permutation_in _ P) in I. apply in_app_iff in I. destruct I as [I|I].
    - apply in_map_iff in I. destruct I as (e & Ee & He). rewrite Forall_forall in Fl. specialize (Fl e He).
      rewrite Ee in Fl. cbn in Fl. lia.
    - rewrite Forall_forall in D. apply (D r I). reflexivity. }
  exists (bp ++ [r]). unfold busy_inv. rewrite Er. cbn [st_pending st_mac st_log].
  fold r. change (mac_start mac (st_mac s) r) with (aloha_start (st_mac s) r).
  split; [|split; [|split; [|split; [|split; [|split]]]]].
  - apply (Permutation_NoDup (Permutation_cons_append bp r)). constructor; auto.
  - intros b Hb. apply in_app_iff in Hb. apply in_app_iff. destruct Hb as [Hb|Hb]; auto.
  - intros b Hb. apply schedule_in in Hb. apply in_app_iff. destruct Hb as [->|Hb]; auto. right; left; auto.
  - intros X. exfalso. pose proof (proj2 (schedule_in r (st_pending s) r) (or_introl eq_refl)) as Y. rewrite X in Y. exact Y.
  - intros b q Hb Hq. apply in_app_iff in Hb. apply schedule_in in Hq. rewrite Forall_forall in T, Fs.
    destruct Hb as [Hb|[<-|[]]], Hq as [->|Hq].
    + specialize (Fs b (Ib b Hb)). cbn. lia.
    + auto.
    + cbn. lia.
    + cbn. specialize (T q Hq). lia.
  - intros _. destruct (st_pending s) as [|q0 l0] eqn:Ep.
    + rewrite (Em eq_refl) in *. unfold owner_inv in Ow. rewrite Ep in Ow. destruct Ow as [O1 O2].
      unfold aloha_start. rewrite O1. cbn [andb negb orb al_power al_coll app length]. rewrite O2.
      split; [cbn; lia|]. split; [reflexivity|]. exists t. split; [|split; [|split]].
      * intros b [<-|[]]. cbn. lia.
      * exists r. split; [left; auto|reflexivity].
      * intros b Hb. apply in_app_iff in Hb. destruct Hb as [Hb|Hb]; [right|left; auto].
        apply (Permutation_in _ P) in Hb. rewrite app_nil_r in Hb. apply in_map_iff in Hb.
        destruct Hb as (e & <- & He). rewrite Forall_forall in Fl. specialize (Fl e He). lia.
      * intros q t' Hq T'. cbn [schedule] in Hq. destruct Hq as [<-|[]]. exists r. split; [apply in_or_app; right; left; auto|].
        exact T'.
    + assert (Bn : bp <> []). { intros X. rewrite X in Ip. exact (Ip q0 (or_introl eq_refl)). }
      destruct (Ne Bn) as (Pw & Co & t0 & B1 & (b0 & Hb0 & E0) & B3 & B4).
      assert (Up : exists o, al_uid (st_mac s) = Some (rx_uid o) /\ al_finish (st_mac s) = rx_end o /\ In o (q0 :: l0)).
      { unfold owner_inv in Ow. rewrite Ep in Ow. unfold last_of in Ow.
        destruct (rev (q0 :: l0)) as [|o l1] eqn:Er1.
        - cbn [rev] in Er1. apply app_eq_nil in Er1. destruct Er1; discriminate.
        - exists o. destruct Ow. split; auto. split; auto. apply in_rev. rewrite Er1. left; auto. }
      destruct Up as (o & U1 & U2 & U3).
      assert (To : t < rx_end o) by (rewrite Forall_forall in T; auto).
      assert (Sh : al_power (aloha_start (st_mac s) r) = al_power (st_mac s) + p /\
                   al_coll (aloha_start (st_mac s) r) = true).
      { unfold aloha_start. rewrite U1, U2. change (rx_start r) with t.
        rewrite (proj2 (Z.ltb_lt _ _) To). cbn [andb negb orb al_power al_coll al_finish].
        destruct (_ <=? _); cbn; auto. }
      destruct Sh as [Sh1 Sh2]. rewrite Sh1, Sh2, Pw, total_app.
      split; [cbn; lia|]. split.
      { symmetry. apply Z.ltb_lt. rewrite app_length. cbn. destruct bp; [congruence|cbn; lia]. }
      exists t0. split; [|split; [|split]].
      * intros b Hb. apply in_app_iff in Hb. destruct Hb as [Hb|[<-|[]]]; auto.
        rewrite Forall_forall in Fs. specialize (Fs b0 (Ib b0 Hb0)). cbn. lia.
      * exists b0. split; auto. apply in_or_app; auto.
      * intros b Hb. apply in_app_iff in Hb. destruct Hb as [Hb|Hb].
        -- destruct (B3 b Hb); auto. left; apply in_or_app; auto.
        -- left; apply in_or_app; auto.
      * intros q t' Hq T'.
        assert (G0 : forall q', In q' (q0 :: l0) -> t0 < t' < rx_end q' ->
          exists r0, In r0 (receptions ops ++ [r]) /\ rx_start r0 < t' < rx_end r0).
        { intros q' Hq' T''. destruct (B4 q' t' Hq' T'') as (r0 & I0 & R0). exists r0. split; auto. apply in_or_app; auto. }
        apply schedule_in in Hq. destruct Hq as [->|Hq]; [|eauto].
        destruct (Z_lt_le_dec t' (rx_end o)); [apply (G0 o); auto; lia|].
        exists r. split; [apply in_or_app; right; left; auto|]. cbn in *. lia.
  - apply Forall_forall. intros e He. rewrite Forall_forall in J, Fl. apply judged_later; auto.
    specialize (Fl e He). cbn. lia.
Qed.

Lemma busy_finish : forall ops s s', sane ops -> NoDup (map rx_uid (st_pending s)) ->
  base_inv ops s -> owner_inv s -> (exists bp, busy_inv ops s bp) ->
  rx_step mac s OFinish = Some (Ok s') -> exists bp, busy_inv ops s' bp.
Proof.
  intros ops s s' Sa Un (P & So & Fn & Fs & Fl) Ow (bp & N & Ib & Ip & Em & Lt & Ne & J) E.
  cbn [rx_step] in E. destruct (st_pending s) as [|a l] eqn:Ep; [discriminate|].
  cbn [mac aloha_mac mac_finish aloha_finish rbind] in E. inversion E; subst s'; clear E.
  assert (Bn : bp <> []). { intros X. rewrite X in Ip. exact (Ip a (or_introl eq_refl)). }
  destruct (Ne Bn) as (Pw & Co & t0 & B1 & (b0 & Hb0 & E0) & B3 & B4).
  assert (Ia : In a bp) by (apply Ip; left; auto).
  assert (Jn : judged below (receptions ops) a
    (if al_coll (st_mac s) && below (rx_pow a) (al_power (st_mac s) - rx_pow a) then [] else [rx_uid a])).
  { apply in_split in Ia. destruct Ia as (l1 & l2 & ->).
    exists (l1 ++ l2). assert (Tt : al_power (st_mac s) - rx_pow a = total (l1 ++ l2)).
    { rewrite Pw, !total_app. cbn [total fold_right]. fold (total l2). lia. }
    rewrite Tt, Co. split.
    - split; [eapply NoDup_remove_1; eauto|]. intros b.
      assert (Mem : In b (l1 ++ l2) <-> In b (l1 ++ a :: l2) /\ b <> a).
      { rewrite !in_app_iff. cbn [In]. split.
        - intros I. split; [tauto|]. intros ->. apply NoDup_remove_2 in N. apply N. apply in_app_iff; auto.
        - intros [[I|[I|I]] Nb]; auto. congruence. }
      rewrite Mem. split.
      + intros [I Nb]. split; [apply Ib; auto|]. split; auto. split.
        * apply Lt; auto. left; auto.
        * intros t T. apply (B4 a t); [left; auto|]. specialize (B1 b I). lia.
      + intros (I & Nb & S1 & S2). split; auto. destruct (B3 b I) as [|L]; auto. exfalso.
        unfold sane in Sa. rewrite Forall_forall in Sa. pose proof (Sa b I).
        assert (t0 < rx_end a). { rewrite <- E0. apply Lt; auto. left; auto. }
        destruct (S2 t0) as (r & Ir & R); [lia|]. destruct (B3 r Ir) as [Hr|Hr]; [|lia].
        specialize (B1 r Hr). lia.
    - rewrite app_length. cbn [length].
      destruct (Nat.eq_dec (length (l1 ++ l2)) 0) as [Z0|Z0].
      + apply length_zero_iff_nil in Z0. rewrite Z0. left. split; auto.
        apply app_eq_nil in Z0. destruct Z0; subst. reflexivity.
      + rewrite app_length in Z0. rewrite (proj2 (Z.ltb_lt _ _)) by lia. cbn [andb].
        destruct (below (rx_pow a) (total (l1 ++ l2))); [right|left]; split; auto. split; auto.
        intros X. rewrite <- app_length, X in Z0. cbn in Z0. lia. }
  exists (match l with [] => [] | _ => bp end). unfold busy_inv. cbn [st_pending st_mac st_log].
  destruct l as [|q l0].
  - split; [constructor|]. split; [intros b []|]. split; [intros b []|]. split; [auto|]. split; [intros b q []|].
    split; [congruence|]. apply Forall_app. split; auto.
  - assert (Oa : match al_uid (st_mac s) with
                 | Some u => if u =? rx_uid a then mkAloha None (rx_end a) false 0 else st_mac s
                 | None => st_mac s end = st_mac s).
    { unfold owner_inv in Ow. rewrite Ep in Ow.
      destruct (q :: l0) as [|y l'] eqn:El using rev_ind; [discriminate|]. clear IHl'.
      change (a :: l' ++ [y]) with ((a :: l') ++ [y]) in Ow. rewrite last_of_snoc in Ow. destruct Ow as [-> _].
      destruct (Z.eqb_spec (rx_uid y) (rx_uid a)) as [X|]; auto. exfalso.
      cbn [map] in Un. inversion Un; subst. apply H1. rewrite map_app, <- X. apply in_or_app. right; left; auto. }
    rewrite Oa.
    split; auto. split; auto. split; [intros b Hb; apply Ip; right; auto|]. split; [discriminate|].
    split; [intros b p Hb Hp; apply Lt; auto; right; auto|].
    split.
    + intros _. split; auto. split; auto. exists t0. split; auto. split; eauto. split; auto.
      intros p t Hp T. apply (B4 p t); auto. right; auto.
    + apply Forall_app. split; auto.
Qed.

Lemma finish_first_app : forall ops pend o M (m : mac_rx M) s s',
  st_pending s = pend -> rx_run m s ops = Some (Ok s') ->
  finish_first pend (ops ++ [o]) -> finish_first pend ops /\ finish_first (st_pending s') [o].
Proof.
  induction ops as [|x ops IH]; intros pend o M m s s' E R F.
  - cbn [app] in F. inversion R; subst. split; [exact I|auto].
  - cbn [rx_run app] in *. destruct x as [t u z p|]; cbn [rx_step finish_first] in *.
    + destruct (_ && _); [|discriminate]. destruct F as [F1 F2].
      edestruct (IH (schedule (mkRx u t (t + z) p) pend) o M m) as [G1 G2]; [|exact R|exact F2|].
      * cbn. rewrite E. reflexivity.
      * repeat split; auto.
    + destruct (st_pending s) as [|r l]; [discriminate|].
      destruct (mac_finish m (st_mac s) r) as [[m' up]| | |]; cbn [rbind] in R; try discriminate.
      subst pend. cbn [tl] in *. edestruct (IH l o M m) as [G1 G2]; [|exact R|exact F|]; auto.
Qed.

Lemma busy_holds : forall ops s, rx_run mac start ops = Some (Ok s) -> sane ops -> separate [] ops ->
  finish_first [] ops -> exists bp, busy_inv ops s bp.
Proof.
  intros ops s R. revert ops s R.
  apply (rx_run_ind aloha mac start (fun ops s => sane ops -> separate [] ops -> finish_first [] ops -> exists bp, busy_inv ops s bp)).
  - intros _ _ _. exists []. unfold busy_inv. cbn.
    repeat split; try constructor; try (intros ? []); try congruence; try (intros; contradiction).
  - intros ops o s s' R IH E Sa D F.
    destruct (finish_first_app ops [] o aloha mac start s eq_refl R F) as [F1 F2].
    pose proof (sane_app _ _ Sa) as Sa'. destruct (separate_app _ _ _ _ _ _ R D) as [D' D''].
    pose proof (base_inv_holds _ _ _ _ _ R Sa') as B. pose proof (owner_holds _ _ R Sa' D') as Ow.
    specialize (IH Sa' D' F1). destruct o as [t u x p|].
    + cbn [finish_first] in F2. destruct F2 as [F2 _]. destruct D'' as [D'' _]. eapply busy_start; eauto.
    + assert (Er : receptions (ops ++ [OFinish]) = receptions ops)
        by (rewrite receptions_app; cbn; apply app_nil_r).
      destruct (busy_finish ops s s' Sa' (separate_pending _ _ _ _ _ R D') B Ow IH E) as (bp & Hb).
      exists bp. unfold busy_inv in *. rewrite Er. exact Hb.
Qed.

(** ** Any schedule *)

Lemma last_of_in : forall l r, last_of l = Some r -> In r l.
Proof.
  intros l r H. unfold last_of in H. destruct (rev l) as [|x y] eqn:E; [discriminate|]. injection H as ->.
  apply in_rev. rewrite E. left. reflexivity.
Qed.
Lemma last_of_none : forall l, last_of l = None -> l = [].
Proof.
  intros l H. unfold last_of in H. destruct (rev l) as [|x y] eqn:E; [|discriminate].
  apply (f_equal (@rev _)) in E. rewrite rev_involutive in E. exact E.
Qed.

(** What the receiver knows of the stretch. *)
Definition stretch_inv (s : rx_state aloha) (first : option reception) (joined : list reception) : Prop :=
  st_pending s <> [] -> exists f, first = Some f /\ al_power (st_mac s) = rx_pow f + total joined /\
    al_coll (st_mac s) = match joined with [] => false | _ => true end.

Lemma stretches_hold : forall ops s s' first joined,
  rx_run mac s ops = Some (Ok s') -> StronglySorted by_end (st_pending s) -> NoDup (map rx_uid (st_pending s)) -> owner_inv s -> stretch_inv s first joined ->
  Forall (fun r => rx_start r < rx_end r) (receptions ops) -> separate (st_pending s) ops ->
  exists new, st_log s' = st_log s ++ new /\ map fst new = map (fun e => fst (fst e)) (stretches (st_pending s) first joined ops) /\
    Forall2 (judged_tied below) (stretches (st_pending s) first joined ops) (map snd new).
Proof.
  induction ops as [|o ops IH]; intros s s' first joined R So N Ow In0 Sa Se.
  - cbn in R. injection R as <-. exists []. rewrite app_nil_r. repeat split; constructor.
  - cbn [rx_run] in R. destruct (rx_step mac s o) as [[s1| | |]|] eqn:E; try discriminate.
    destruct o as [t u x p|].
    + pose proof (owner_start s _ s1 So Ow E ltac:(eauto 6)) as Ow1. cbn [separate] in Se. destruct Se as [Se1 Se2].
      change (receptions (OStart t u x p :: ops)) with (mkRx u t (t + x) p :: receptions ops) in Sa. inversion Sa as [|? ? Sr Sa']; subst.
      pose proof E as E'. cbn [rx_step] in E'. destruct (_ && _) eqn:G; [|discriminate]. injection E' as E'.
      set (r := mkRx u t (t + x) p) in *.
      assert (So1 : StronglySorted by_end (st_pending s1)) by (rewrite <- E'; cbn [st_pending]; apply schedule_sorted; exact So).
      assert (N1 : NoDup (map rx_uid (st_pending s1))).
      { rewrite <- E'. cbn [st_pending]. eapply Permutation_NoDup; [apply Permutation_map; apply Permutation_sym, schedule_perm|].
        cbn [map]. constructor; [|exact N]. intros I0. apply in_map_iff in I0. destruct I0 as (q & Eq & Hq). rewrite Forall_forall in Se1. exact (Se1 q Hq Eq). }
      assert (Lg : st_log s1 = st_log s) by (rewrite <- E'; reflexivity).
      assert (Pn : st_pending s1 = schedule r (st_pending s)) by (rewrite <- E'; reflexivity).
      cbn [stretches]. fold r. destruct (st_pending s) as [|q l] eqn:Ep.
      * cbn [schedule] in Pn. rewrite <- Pn. rewrite <- Lg. apply IH; auto.
        -- intros _. exists r. split; [reflexivity|]. unfold owner_inv in Ow. rewrite Ep in Ow. destruct Ow as [O1 O2].
           rewrite <- E'. cbn [st_mac]. change (mac_start mac (st_mac s) r) with (aloha_start (st_mac s) r). unfold aloha_start. rewrite O1. cbn. rewrite O2. split; [lia|reflexivity].
        -- rewrite Pn. exact Se2.
      * rewrite <- Pn. rewrite <- Lg. apply IH; auto; [|rewrite Pn; exact Se2]. intros _.
        destruct (In0 ltac:(rewrite Ep; discriminate)) as (f & F1 & F2 & F3). exists f. split; [exact F1|].
        rewrite <- E'. cbn [st_mac]. change (mac_start mac (st_mac s) r) with (aloha_start (st_mac s) r).
        unfold owner_inv in Ow. rewrite Ep in Ow. destruct (last_of (q :: l)) as [o|] eqn:El; [|apply last_of_none in El; discriminate].
        destruct Ow as [O1 O2]. pose proof (last_of_in _ _ El) as Io.
        assert (Tst : existsb (fun y => t <? rx_end y) (q :: l) = (t <? rx_end o)).
        { destruct (Z.ltb_spec t (rx_end o)) as [L|L].
          - apply existsb_exists. exists o. split; [exact Io|apply Z.ltb_lt; exact L].
          - apply Bool.not_true_is_false. intros X. apply existsb_exists in X. destruct X as (y & Hy & Ly). apply Z.ltb_lt in Ly.
            assert (By : rx_end y <= rx_end o).
            { clear -So El Hy. revert y Hy. destruct (q :: l) as [|z l'] eqn:Z0 using rev_ind; [discriminate|]. clear IHl'. rewrite last_of_snoc in El. injection El as ->.
              intros y Hy. apply in_app_iff in Hy. destruct Hy as [Hy|[<-|[]]]; [|lia]. clear Z0. induction l' as [|w l' IHl']; [contradiction|]. cbn in So. inversion So; subst.
              destruct Hy as [<-|Hy]; [|auto]. rewrite Forall_forall in H2. apply H2. apply in_or_app; right; left; auto. }
            lia. }
        rewrite Tst. unfold aloha_start. rewrite O1. cbn [andb negb orb]. change (rx_start r) with t. rewrite O2.
        destruct (t <? rx_end o); cbn [al_finish al_power al_coll].
        -- destruct (rx_end o <=? rx_end r); cbn [al_power al_coll]; (split; [rewrite F2, total_app; cbn; lia|destruct joined; reflexivity]).
        -- rewrite O2. destruct (rx_end o <=? rx_end r); cbn [al_power al_coll]; tauto.
    + pose proof (owner_finish s s1 N Ow E) as Ow1. cbn [separate] in Se. cbn [rx_step] in E.
      destruct (st_pending s) as [|a l] eqn:Ep; [discriminate|]. cbn [mac aloha_mac mac_finish aloha_finish rbind] in E. injection E as E.
      destruct (In0 ltac:(rewrite Ep; discriminate)) as (f & F1 & F2 & F3). cbn [tl] in Se.
      assert (Pn : st_pending s1 = l) by (rewrite <- E; reflexivity).
      destruct (IH s1 s' first joined R) as (new & L1 & L2 & L3); auto.
      * rewrite Pn. inversion So; auto.
      * rewrite Pn. inversion N; auto.
      * intros X. exists f. split; [exact F1|]. rewrite <- E. cbn [st_mac]. rewrite Pn in X.
        unfold owner_inv in Ow. rewrite Ep in Ow. destruct l as [|y l' _] using rev_ind; [congruence|].
        change (a :: l' ++ [y]) with ((a :: l') ++ [y]) in Ow. rewrite last_of_snoc in Ow. destruct Ow as [O1 _]. rewrite O1.
        destruct (Z.eqb_spec (rx_uid y) (rx_uid a)) as [Y|Y]; [exfalso|tauto].
        cbn [map] in N. inversion N; subst. apply H1. rewrite map_app, <- Y. apply in_or_app. right; left; auto.
      * rewrite Pn. exact Se.
      * cbn [stretches]. eexists (_ :: new). rewrite L1, <- E. cbn [st_log]. rewrite <- app_assoc. split; [reflexivity|].
        cbn [map fst snd]. rewrite Pn in L2, L3. split; [f_equal; exact L2|]. constructor; [|exact L3].
        unfold judged_tied. exists f. split; [exact F1|]. rewrite F2, F3. destruct joined as [|j joined]; cbn [andb]; [left; split; auto|].
        destruct (below (rx_pow a) (rx_pow f + total (j :: joined) - rx_pow a)); [right|left]; (split; [|reflexivity]); [split; [discriminate|reflexivity]|right; reflexivity].
Qed.

End Receiver.
