(** C06 - C11. *)
From Coq Require Import ZArith QArith List Lia Bool Arith Permutation.
From Verif Require Import Base SatAddrModel SatAddrProofs ConstellationModel ConstellationSpec ConstellationProofs.
Import ListNotations.
Open Scope nat_scope.

(** Which histories run: exactly those with pairwise different slots inside the grid. *)
Theorem history_succeeds_iff_admissible : forall h id P S adds,
  (exists c l, run_adds h (con_new id P S) adds = Ok (c, l)) <-> admissible P S adds.
Proof.
  intros h id P S adds. split.
  - intros (c & l & R). exact (proj1 (run_adds_admissible _ _ _ _ _ (new_wf id P S) R)).
  - intros Ad. apply admissible_runs; [apply new_wf | exact Ad |].
    intros p i Hin. apply in_map_iff in Hin. destruct Hin as ([[p' i'] d] & E & Hin).
    destruct Ad as [_ F]. rewrite Forall_forall in F. apply F in Hin.
    unfold slot_of in *; simpl in *. inversion E; subst. apply con_at_new; tauto.
Qed.
Print Assumptions history_succeeds_iff_admissible.

Lemma dims_u16 : forall P S adds p i d, admissible P S adds ->
  (Z.of_nat P <= 65536)%Z -> (Z.of_nat S <= 65536)%Z -> In (p, i, d) adds ->
  is_u16 (Z.of_nat p) /\ is_u16 (Z.of_nat i) /\ p < P /\ i < S.
Proof.
  intros P S adds p i d [_ F] HP HS Hin. rewrite Forall_forall in F. apply F in Hin.
  unfold slot_of in Hin; simpl in Hin. unfold is_u16. lia.
Qed.

(** C06 *)
Theorem satellite_found_at_its_address : forall h id P S adds c addrs,
  is_u16 id -> (Z.of_nat P <= 65536)%Z -> (Z.of_nat S <= 65536)%Z ->
  run_adds h (con_new id P S) adds = Ok (c, addrs) ->
  length addrs = length adds /\ NoDup addrs /\
  forall k p i d a, nth_error adds k = Some (p, i, d) -> nth_error addrs k = Some a ->
    get_satellite_addr h c a = Ok (Some d) /\
    get_constellation h a = id /\ get_plane h a = Z.of_nat p /\ get_index h a = Z.of_nat i.
Proof.
  intros h id P S adds c addrs Hid HP HS R.
  pose proof (run_adds_addrs _ _ _ _ _ (new_wf id P S) R) as E. cbn [con_id con_new] in E.
  destruct (run_adds_admissible _ _ _ _ _ (new_wf id P S) R) as [Ad _]. cbn in Ad.
  pose proof Ad as [ND _].
  destruct (run_adds_wf _ _ _ _ _ (new_wf id P S) R) as (W & Eid & EP & ES & _). cbn in Eid, EP, ES.
  split; [rewrite E; apply map_length |]. split.
  - rewrite E. clear E R. induction adds as [|[[p i] d] r IH]; simpl; constructor.
    + intros X. apply in_map_iff in X. destruct X as ([[p' i'] d'] & Q & Hin).
      unfold slot_of in Q; cbn [fst snd] in Q.
      destruct (dims_u16 _ _ _ p i d Ad HP HS (or_introl eq_refl)) as (U1 & U2 & _).
      destruct (dims_u16 _ _ _ p' i' d' Ad HP HS (or_intror Hin)) as (V1 & V2 & _).
      assert (G := getters_make h id (Z.of_nat p) (Z.of_nat i) Hid U1 U2).
      assert (G' := getters_make h id (Z.of_nat p') (Z.of_nat i') Hid V1 V2).
      rewrite Q in G'. destruct G as (_ & G1 & G2). destruct G' as (_ & G1' & G2').
      assert (p = p') by lia. assert (i = i') by lia. subst.
      simpl in ND. inversion ND; subst. apply H1. apply in_map_iff. exists (p', i', d'). auto.
    + simpl in ND. inversion ND; subst. apply IH; auto.
      destruct Ad as [_ F]. inversion F; subst. split; auto.
  - intros k p i d a Hk Ha. rewrite E in Ha. erewrite map_nth_error in Ha by exact Hk.
    unfold slot_of in Ha; cbn [fst snd] in Ha. inversion Ha; subst a.
    apply nth_error_In in Hk.
    destruct (dims_u16 _ _ _ _ _ _ Ad HP HS Hk) as (U1 & U2 & Lp & Li).
    destruct (getters_make h id (Z.of_nat p) (Z.of_nat i) Hid U1 U2) as (G0 & G1 & G2).
    split; [|auto]. unfold get_satellite_addr, get_satellite.
    rewrite G0, G1, G2, Eid, EP, ES, Z.eqb_refl, !Nat2Z.id.
    rewrite (proj2 (Nat.leb_le p P)) by lia. rewrite (proj2 (Nat.leb_le i S)) by lia. simpl.
    rewrite (run_new_at _ _ _ _ _ _ _ R p i Lp Li). f_equal. apply added_at_In; auto.
Qed.
Print Assumptions satellite_found_at_its_address.

(** The 16-bit bound is needed: past it two different slots get the same address. *)
Theorem addresses_collide_beyond_16_bits :
  sat_make LittleEndian 1 (Z.of_nat 0) 0 = sat_make LittleEndian 1 65536 0.
Proof. reflexivity. Qed.

Definition sample_adds : list (nat * nat * nat) := [(0, 1, 10); (2, 0, 11); (0, 0, 12); (1, 1, 13)].
Example sample_admissible : admissible 3 2 sample_adds.
Proof.
  unfold admissible, sample_adds; simpl. split.
  - repeat constructor; simpl; intuition discriminate.
  - repeat constructor; simpl; lia.
Qed.

(** C07 *)
Theorem size_and_listing_agree : forall h id P S adds c addrs,
  run_adds h (con_new id P S) adds = Ok (c, addrs) ->
  get_size c = Ok (length adds) /\ length adds <= P * S /\
  container c = listing P S adds /\
  Permutation (container c) (map dev_of adds).
Proof.
  intros h id P S adds c addrs R.
  destruct (run_adds_admissible _ _ _ _ _ (new_wf id P S) R) as [Ad _]. cbn in Ad.
  destruct (run_adds_wf _ _ _ _ _ (new_wf id P S) R) as (W & _ & EP & ES & En). cbn in EP, ES, En.
  pose proof (admissible_bound _ _ _ Ad) as B.
  repeat split; auto.
  - unfold get_size. rewrite EP, ES, En. rewrite (proj2 (Nat.leb_le (length adds) (P * S)) B). reflexivity.
  - eapply container_listing; eauto.
  - erewrite container_listing by eauto. apply listing_perm; auto.
Qed.
Print Assumptions size_and_listing_agree.

Example sample_listing :
  rmap (fun x => container (fst x)) (run_adds LittleEndian (con_new 1 3 2) sample_adds)
  = Ok [12; 10; 13; 11].
Proof. reflexivity. Qed.

(** C08 *)
Theorem slot_never_overwritten : forall h id P S adds c addrs p i,
  run_adds h (con_new id P S) adds = Ok (c, addrs) -> p < P -> i < S ->
  (forall d, added_at adds p i = Some d ->
     (forall d' o, add_satellite h c p i d' o = Abort) /\
     (forall more c' addrs', run_adds h c more = Ok (c', addrs') -> get_satellite c' p i = Ok (Some d))) /\
  (added_at adds p i = None ->
     forall d', exists c' a, add_satellite h c p i d' true = Ok (c', a) /\
       get_satellite c' p i = Ok (Some d') /\
       forall p2 i2, (p2, i2) <> (p, i) -> p2 < P -> i2 < S ->
         get_satellite c' p2 i2 = get_satellite c p2 i2).
Proof.
  intros h id P S adds c addrs p i R Hp Hi.
  destruct (run_adds_wf _ _ _ _ _ (new_wf id P S) R) as (W & _ & EP & ES & _). cbn in EP, ES.
  pose proof (run_new_at _ _ _ _ _ _ _ R p i Hp Hi) as A.
  assert (G : forall c0 p0 i0, con_planes c0 = P -> con_plane_size c0 = S -> p0 < P -> i0 < S ->
            get_satellite c0 p0 i0 = con_at (con_grid c0) p0 i0).
  { intros c0 p0 i0 E1 E2 L1 L2. unfold get_satellite. rewrite E1, E2.
    rewrite (proj2 (Nat.leb_le p0 P)) by lia. rewrite (proj2 (Nat.leb_le i0 S)) by lia. reflexivity. }
  split.
  - intros d Hd. rewrite Hd in A. split.
    + intros d' o. unfold add_satellite. rewrite A. reflexivity.
    + intros more c' addrs' R'.
      destruct (run_adds_wf _ _ _ _ _ W R') as (_ & _ & EP' & ES' & _).
      rewrite G by congruence. 
      destruct (run_adds_at _ _ _ _ _ W R' p i (Some d) A) as [Q1 Q2].
      rewrite Q1, (Q2 ltac:(discriminate)). reflexivity.
  - intros Hn d'. rewrite Hn in A. do 2 eexists. split; [apply (add_free_ok h c p i d' A)|].
    split.
    + rewrite G by (simpl; auto). simpl. eapply con_at_put_same; eauto; congruence.
    + intros p2 i2 N L1 L2. rewrite !G by (simpl; auto). simpl.
      eapply con_at_put_other; eauto.
Qed.
Print Assumptions slot_never_overwritten.

(** C09: the checks let the first index past the end through. *)
Definition lookup_bounds_checked : Prop := forall id P S p i,
  get_satellite (con_new id P S) p i <> UB.

Theorem lookup_out_of_bounds_refuted : ~ lookup_bounds_checked.
Proof. intros H. apply (H 1%Z 2 3 2 0). reflexivity. Qed.
Print Assumptions lookup_out_of_bounds_refuted.

(** In every reachable constellation: defined strictly inside, undefined exactly on the two border
    lines the checks forget, rejected beyond.  Missing for the full claim: rejection on the border. *)
Theorem lookup_bounds_partial : forall h id P S adds c addrs p i,
  run_adds h (con_new id P S) adds = Ok (c, addrs) ->
  (p < P /\ i < S -> get_satellite c p i = Ok (added_at adds p i)) /\
  (p <= P /\ i <= S /\ (p = P \/ i = S) -> get_satellite c p i = UB) /\
  (P < p \/ S < i -> get_satellite c p i = Assert).
Proof.
  intros h id P S adds c addrs p i R.
  destruct (run_adds_wf _ _ _ _ _ (new_wf id P S) R) as (W & _ & EP & ES & _). cbn in EP, ES.
  unfold get_satellite. rewrite EP, ES. repeat split.
  - intros [Hp Hi]. rewrite (proj2 (Nat.leb_le p P)) by lia. rewrite (proj2 (Nat.leb_le i S)) by lia.
    simpl. eapply run_new_at; eauto.
  - intros (Hp & Hi & Hb). rewrite (proj2 (Nat.leb_le p P)) by lia.
    rewrite (proj2 (Nat.leb_le i S)) by lia. simpl.
    apply (con_at_out P S); [|lia]. unfold wf in W. rewrite EP, ES in W. exact W.
  - intros [Hp|Hi].
    + rewrite (proj2 (Nat.leb_gt p P)) by lia. reflexivity.
    + destruct (p <=? P); simpl; [|reflexivity].
      rewrite (proj2 (Nat.leb_gt i S)) by lia. reflexivity.
Qed.
Print Assumptions lookup_bounds_partial.

(** By address: nothing for an address of another constellation, otherwise as above. *)
Theorem lookup_by_address_partial : forall h id P S adds c addrs k p i,
  is_u16 k -> is_u16 (Z.of_nat p) -> is_u16 (Z.of_nat i) ->
  run_adds h (con_new id P S) adds = Ok (c, addrs) ->
  let found := get_satellite_addr h c (sat_make h k (Z.of_nat p) (Z.of_nat i)) in
  (k <> id -> found = Assert) /\
  (k = id ->
    (p < P /\ i < S -> found = Ok (added_at adds p i)) /\
    (p <= P /\ i <= S /\ (p = P \/ i = S) -> found = UB) /\
    (P < p \/ S < i -> found = Assert)).
Proof.
  intros h id P S adds c addrs k p i Uk Up Ui R found. subst found.
  destruct (run_adds_wf _ _ _ _ _ (new_wf id P S) R) as (_ & Eid & _). cbn in Eid.
  destruct (getters_make h k (Z.of_nat p) (Z.of_nat i) Uk Up Ui) as (G0 & G1 & G2).
  unfold get_satellite_addr. rewrite G0, G1, G2, Eid, !Nat2Z.id. split.
  - intros N. rewrite (proj2 (Z.eqb_neq _ _) N). reflexivity.
  - intros ->. rewrite Z.eqb_refl. cbn [assert_ rbind]. eapply lookup_bounds_partial; eauto.
Qed.
Print Assumptions lookup_by_address_partial.

(** C10 *)
Definition flat_index_enumerates : Prop := forall h id P S adds c addrs,
  run_adds h (con_new id P S) adds = Ok (c, addrs) ->
  (forall k, k < length adds -> exists d, con_get c k = Ok (Some d)) /\
  (forall k, length adds <= k -> con_get c k = Abort).

Theorem flat_index_misses_satellites_refuted : ~ flat_index_enumerates.
Proof.
  intros H. destruct (run_adds LittleEndian (con_new 1 2 2) [(1, 0, 7)]) as [[c l]| | |] eqn:R;
    try discriminate R.
  destruct (H _ _ _ _ _ _ _ R) as [A _]. destruct (A 0 (le_n 1)) as [d Hd].
  vm_compute in R. inversion R; subst. vm_compute in Hd. discriminate.
Qed.
Print Assumptions flat_index_misses_satellites_refuted.

(** The index equal to the size passes the check; on a full constellation it reads past the end. *)
Theorem flat_index_boundary_refuted : forall P S adds h id c addrs,
  0 < S -> length adds = P * S -> run_adds h (con_new id P S) adds = Ok (c, addrs) ->
  con_get c (length adds) = UB.
Proof.
  intros P S adds h id c addrs HS L R.
  destruct (run_adds_wf _ _ _ _ _ (new_wf id P S) R) as (W & _ & EP & ES & En). cbn in EP, ES, En.
  rewrite con_get_ok; rewrite ?EP, ?ES, ?En; auto; try lia.
  rewrite L, Nat.div_mul by lia.
  apply (con_at_out P S); [|lia]. unfold wf in W. rewrite EP, ES in W. exact W.
Qed.
Print Assumptions flat_index_boundary_refuted.

(** Exactly the constellations filled plane by plane without holes are enumerated, and for them the
    enumeration is the device list.  Missing for the full claim: other fill orders, and the
    rejection of the index equal to the size. *)
Theorem flat_index_partial : forall h id P S adds c addrs,
  0 < S -> run_adds h (con_new id P S) adds = Ok (c, addrs) ->
  ((forall k, k < length adds -> exists d, con_get c k = Ok (Some d)) <->
   (forall p i d, added_at adds p i = Some d -> p * S + i < length adds)) /\
  ((forall p i d, added_at adds p i = Some d -> p * S + i < length adds) ->
   forall k, k < length adds -> con_get c k = Ok (nth_error (container c) k)) /\
  (forall k, length adds < k -> con_get c k = Abort).
Proof.
  intros h id P S adds c addrs HS R.
  destruct (run_adds_admissible _ _ _ _ _ (new_wf id P S) R) as [Ad _]. cbn in Ad.
  destruct (run_adds_wf _ _ _ _ _ (new_wf id P S) R) as (W & _ & EP & ES & En). cbn in EP, ES, En.
  pose proof (admissible_bound _ _ _ Ad) as B.
  assert (G : forall k, k < length adds -> con_get c k = Ok (added_at adds (k / S) (k mod S))).
  { intros k Hk. rewrite con_get_ok; rewrite ?EP, ?ES, ?En; auto; try lia.
    assert (Hk2 : k < P * S) by (eapply Nat.lt_le_trans; eauto).
    destruct (flat_slot P S k Hk2). eapply run_new_at; eauto. }
  split; [split|split].
  - intros H. apply (first_row_major P S adds HS Ad). intros k Hk.
    destruct (H k Hk) as [d Hd]. rewrite G in Hd by auto. inversion Hd. eauto.
  - intros RM k Hk. destruct (row_major_first P S adds Ad RM k Hk) as [d Hd].
    exists d. rewrite G by auto. congruence.
  - intros RM k Hk. rewrite G by auto. f_equal. symmetry.
    erewrite container_listing by eauto. apply listing_row_major; auto.
  - intros k Hk. unfold con_get, get_size. rewrite EP, ES, En.
    cbn [Nat.add]. rewrite (proj2 (Nat.leb_le _ _) B). simpl.
    rewrite (proj2 (Nat.leb_gt k (length adds))) by lia. reflexivity.
Qed.
Print Assumptions flat_index_partial.

Example flat_index_case :
  match run_adds LittleEndian (con_new 1 2 2) [(0, 1, 5); (1, 0, 6); (0, 0, 4)] with
  | Ok (c, _) => map (con_get c) [0; 1; 2] = [Ok (Some 4); Ok (Some 5); Ok (Some 6)]
  | _ => False
  end.
Proof. reflexivity. Qed.

(** C11 *)
Lemma closest_by_is_closest : forall A leb (sq : dev -> A) h id P S adds c addrs, total_order leb ->
  run_adds h (con_new id P S) adds = Ok (c, addrs) ->
  (get_closest_by leb sq c = None <-> adds = []) /\
  (forall d, get_closest_by leb sq c = Some d ->
     In d (map dev_of adds) /\
     (forall x, In x (map dev_of adds) -> leb (sq d) (sq x) = true) /\
     exists before after, listing P S adds = before ++ d :: after /\
       forall x, In x after -> leb (sq x) (sq d) = false).
Proof.
  intros A leb sq h id P S adds c addrs O R.
  destruct (size_and_listing_agree _ _ _ _ _ _ _ R) as (_ & _ & EL & PM).
  rewrite get_closest_list. pose proof (closest_fold A leb sq (container c) O) as C. destruct O as [Tot Tr].
  destruct (fold_left _ _ _) as [[d|] [b|]]; simpl; try contradiction.
  - destruct C as [_ (bf & af & E & H1 & H2)].
    split; [split; [discriminate|]|].
    + intros ->. simpl in PM. apply Permutation_sym, Permutation_nil in PM. rewrite E in PM.
      destruct bf; discriminate.
    + intros d' Q. inversion Q; subst d'. split; [|split].
      * eapply Permutation_in; [exact PM|]. rewrite E. apply in_app_iff; simpl; auto.
      * intros x Hx. apply (Permutation_in _ (Permutation_sym PM)) in Hx. rewrite E in Hx.
        apply in_app_iff in Hx. destruct Hx as [Hx|[->|Hx]]; auto.
        destruct (leb (sq x) (sq x)) eqn:E'; [reflexivity|]. rewrite <- E'. apply Tot, E'.
      * exists bf, af. rewrite <- EL. split; [exact E|exact H2].
  - destruct C as [_ C]. discriminate.
  - destruct C as [C _]. split; [split; auto|discriminate].
    intros _. rewrite C in PM. apply Permutation_nil in PM. destruct adds; [reflexivity|discriminate].
Qed.

Theorem closest_is_closest : forall h id P S adds c addrs pos q,
  run_adds h (con_new id P S) adds = Ok (c, addrs) ->
  (get_closest pos c q = None <-> adds = []) /\
  (forall d, get_closest pos c q = Some d ->
     In d (map dev_of adds) /\
     (forall x, In x (map dev_of adds) -> (apart (pos d) q <= apart (pos x) q)%Q) /\
     exists before after, listing P S adds = before ++ d :: after /\
       forall x, In x after -> (apart (pos d) q < apart (pos x) q)%Q).
Proof.
  intros h id P S adds c addrs pos q R.
  assert (Sq : forall x, (apart (pos x) q == sq_distance (pos x) q)%Q).
  { intros x. unfold apart, sq_distance. destruct (pos x) as [[ax ay] az], q as [[bx by_] bz]. ring. }
  destruct (closest_by_is_closest _ Qle_bool (fun d => sq_distance (pos d) q) h id P S adds c addrs Qle_bool_total R) as [N C].
  split; [exact N|]. intros d G. destruct (C d G) as (I & M & bf & af & E & F). split; [exact I|]. split.
  - intros x Hx. rewrite !Sq. apply Qle_bool_iff, M, Hx.
  - exists bf, af. split; [exact E|]. intros x Hx. rewrite !Sq. apply Qnot_le_lt. intros X. apply Qle_bool_iff in X.
    rewrite (F x Hx) in X. discriminate.
Qed.
Print Assumptions closest_is_closest.

Example closest_case :
  let pos d := (inject_Z (Z.of_nat d), 0%Q, 0%Q) in
  let up d := (0%Q, inject_Z (Z.of_nat d), inject_Z (- Z.of_nat d)) in
  match run_adds LittleEndian (con_new 1 3 2) sample_adds with
  | Ok (c, _) => get_closest pos c (12%Q, 1%Q, 0%Q) = Some 12 /\ get_closest pos c (23 # 2, 0%Q, 0%Q)%Q = Some 11 /\
      get_closest up c (1%Q, 13%Q, -10)%Q = Some 11 /\ get_closest up c (1%Q, 13%Q, -13)%Q = Some 13
  | _ => False
  end.
Proof. vm_compute. repeat split; reflexivity. Qed.
