From Coq Require Import ZArith List Lia Bool Arith.
From Verif Require Import Base SatAddrModel SatAddrProofs ConstellationModel ConstellationSpec
  ConstellationProofs ConstellationProps IslModel IslSpec IslProofs IslProps
  GeoTagModel GeoTagSpec GeoTagProofs GeoTagProps.
Import ListNotations.
Open Scope Z_scope.

Lemma rfind_total : forall A (p : A -> result bool) l,
  (forall x, In x l -> exists r, p x = Ok r) -> exists o, rfind p l = Ok o.
Proof.
  induction l as [|a l IH]; simpl; intros H; [eauto|].
  destruct (H a (or_introl eq_refl)) as ([] & ->); simpl; eauto.
Qed.

Lemma lookup_combine : forall (adds : list (nat * nat * nat)) addrs k p i d a,
  NoDup (map dev_of adds) -> nth_error adds k = Some (p, i, d) -> nth_error addrs k = Some a ->
  lookup d (combine (map dev_of adds) addrs) = Some a.
Proof.
  induction adds as [|[[p' i'] d'] r IH]; intros addrs k p i d a ND Hk Ha; [destruct k; discriminate|].
  destruct addrs as [|a' addrs]; [destruct k; discriminate|].
  inversion ND; subst. cbn [map combine lookup dev_of snd]. unfold dev_of at 1; cbn [snd].
  destruct k; simpl in Hk, Ha.
  - inversion Hk; inversion Ha; subst. rewrite Nat.eqb_refl. reflexivity.
  - destruct (Nat.eqb_spec d d') as [->|]; [|eapply IH; eauto].
    exfalso. apply H1. apply in_map_iff. exists (p, i, d'). split; [reflexivity|].
    eapply nth_error_In; eauto.
Qed.

Lemma cmod_pos : forall x m, 0 < m -> cmod x m = Ok (x mod m).
Proof. intros. unfold cmod. destruct (Z.eqb_spec m 0); [lia|reflexivity]. Qed.

Lemma ringdist_nonneg : forall n a b, 0 < n -> 0 <= ringdist n a b.
Proof.
  intros n a b H. unfold ringdist.
  apply Z.min_glb; apply Z.mod_pos_bound; auto.
Qed.

Section Delivery.
  Variables (h : host) (id : Z) (P S : nat) (adds : list (nat * nat * nat)).
  Variables (c : constellation) (addrs : list sat_address) (ids : list Z) (links : list (nat * nat)).
  Hypothesis Hid : is_u16 id.
  Hypothesis Hid0 : (id <> 0)%Z.
  Hypothesis HP : (Z.of_nat P <= 65536)%Z.
  Hypothesis HS : (Z.of_nat S <= 65536)%Z.
  Hypothesis R : run_adds h (con_new id P S) adds = Ok (c, addrs).
  Hypothesis Full : length adds = (P * S)%nat.
  Hypothesis ND : NoDup (map dev_of adds).
  Hypothesis Ids : Forall (eq id) ids.
  Hypothesis Il : length ids = (P * S)%nat.
  Hypothesis Il' : install_grid ids c = Ok links.

  Let net := launched_net adds addrs links P S.

  Lemma d_adm : admissible P S adds.
  Proof. exact (proj1 (run_adds_admissible _ _ _ _ _ (new_wf id P S) R)). Qed.

  Lemma d_addr : forall p i d, In (p, i, d) adds ->
    exists a, nw_addr net d = Some a /\ get_plane h a = Z.of_nat p /\ get_index h a = Z.of_nat i /\
    (p < P)%nat /\ (i < S)%nat.
  Proof.
    intros p i d Hin.
    destruct (satellite_found_at_its_address h id P S adds c addrs Hid HP HS R) as (L & _ & F).
    destruct (In_nth_error _ _ Hin) as (k & Hk).
    assert (Hl : (k < length addrs)%nat) by (rewrite L; apply nth_error_Some; congruence).
    destruct (nth_error addrs k) as [a|] eqn:Ea; [|apply nth_error_None in Ea; lia].
    exists a. destruct (F k p i d a Hk Ea) as (_ & _ & G1 & G2).
    split; [eapply lookup_combine; eauto|]. split; [auto|]. split; [auto|].
    destruct d_adm as [_ Fa]. rewrite Forall_forall in Fa. apply Fa in Hin. exact Hin.
  Qed.

  Lemma d_links : links = dev_links (placed adds) (coord_links P S).
  Proof.
    destruct (full_complete _ _ _ _ _ _ _ R Full) as (C & EP & ES & En).
    pose proof (install_grid_complete c (placed adds) id ids C) as Q.
    rewrite EP, ES, En in Q. specialize (Q ltac:(lia) Hid Hid0 Ids Il). congruence.
  Qed.

  Lemma d_placed : forall p i, (p < P)%nat -> (i < S)%nat -> In (p, i, placed adds (p, i)) adds.
  Proof.
    intros p i Hp Hi. destruct (full_history P S adds d_adm Full p i Hp Hi) as (d & E).
    unfold placed; cbn [fst snd]. rewrite E. apply added_at_inv; auto.
  Qed.

  Lemma d_placed_eq : forall p i d, In (p, i, d) adds -> placed adds (p, i) = d.
  Proof.
    intros p i d Hin. unfold placed; cbn [fst snd].
    rewrite (added_at_In _ _ _ _ (proj1 d_adm) Hin). reflexivity.
  Qed.

  Lemma d_inj : inj_on P S (placed adds).
  Proof. apply placed_inj; auto. apply d_adm. Qed.

  (** The end of a link at a satellite, in coordinates. *)
  Lemma d_ends : forall k p i m, (p < P)%nat -> (i < S)%nat -> ends links k (placed adds (p, i)) m ->
    exists q j, m = placed adds (q, j) /\ torus_neighbour P S (p, i) (q, j) /\
      (q < P)%nat /\ (j < S)%nat.
  Proof.
    intros k p i m Hp Hi E. rewrite d_links in E.
    assert (Hs : In (p, i) (slots P S)) by (apply in_slots; auto).
    destruct E as [E|E]; apply nth_error_In in E; unfold dev_links in E; apply in_map_iff in E;
      destruct E as ([[a b] [a' b']] & E & Hin); cbn [fst snd] in E; injection E as E1 E2;
      pose proof (links_in_grid _ _ _ _ Hin) as (G1 & G2 & _).
    - apply d_inj in E1; auto. inversion E1; subst. exists a', b'.
      split; [auto|]. split; [apply links_orientation; auto|]. apply in_slots in G2. tauto.
    - apply d_inj in E2; auto. inversion E2; subst. exists a, b.
      split; [auto|]. split; [apply links_orientation; auto|]. apply in_slots in G1. tauto.
  Qed.

  Lemma d_remote : forall k p i m, (p < P)%nat -> (i < S)%nat -> ends links k (placed adds (p, i)) m ->
    remote_node net (placed adds (p, i)) (IslFace k) = Ok m.
  Proof.
    intros k p i m Hp Hi E. unfold remote_node; cbn [nw_links net launched_net].
    pose proof E as E'. destruct E as [E|E]; rewrite E.
    - rewrite Nat.eqb_refl. reflexivity.
    - destruct (Nat.eqb_spec m (placed adds (p, i))) as [->|]; reflexivity.
  Qed.

  Lemma d_face : forall k p i m, (p < P)%nat -> (i < S)%nat -> ends links k (placed adds (p, i)) m ->
    exists q j a, m = placed adds (q, j) /\ torus_neighbour P S (p, i) (q, j) /\
      (q < P)%nat /\ (j < S)%nat /\
      sat_address_of net (placed adds (p, i)) (IslFace k) = Ok a /\
      get_plane h a = Z.of_nat q /\ get_index h a = Z.of_nat j.
  Proof.
    intros k p i m Hp Hi E. destruct (d_ends k p i m Hp Hi E) as (q & j & -> & T & Hq & Hj).
    destruct (d_addr q j (placed adds (q, j)) (d_placed q j Hq Hj)) as (a & A1 & A2 & A3 & _).
    exists q, j, a. repeat split; auto. unfold sat_address_of. rewrite (d_remote k p i _ Hp Hi E).
    cbn [rbind]. rewrite A1. reflexivity.
  Qed.

  Lemma d_neighbour_link : forall x y, torus_neighbour P S x y ->
    exists k, ends links k (placed adds x) (placed adds y).
  Proof.
    intros x y T. rewrite d_links. apply links_orientation in T.
    destruct T as [T|T]; apply (in_map (fun e => (placed adds (fst e), placed adds (snd e)))) in T;
      apply In_nth_error in T; destruct T as (k & Hk); exists k; [left|right]; exact Hk.
  Qed.

  (** Forwarding tables and PIT state of every satellite. *)
  Variables (nh : nat -> list face) (ctx : nat -> face -> request) (cid : Z) (q j : nat).
  Hypothesis Hq : (q < P)%nat.
  Hypothesis Hj : (j < S)%nat.
  Hypothesis Hnh : forall n f, In n (map dev_of adds) ->
    (In f (nh n) <-> f = GroundFace \/ exists k m, f = IslFace k /\ ends links k n m).
  Hypothesis Hctx : forall n f, rq_tag (ctx n f) = Some (cid, Z.of_nat q, Z.of_nat j) /\
    rq_ingress (ctx n f) = f /\ rq_sup (ctx n f) <> SUPPRESS /\ forall g, rq_scope (ctx n f) g = false.

  Definition d_handle (n : nat) (f : face) := after_receive_interest net h n (nh n) (ctx n f).

  Definition zslot (x : slot) : Z * Z := (Z.of_nat (fst x), Z.of_nat (snd x)).
  Definition d_dist (x : slot) : Z := griddist (Z.of_nat P) (Z.of_nat S) (zslot x) (zslot (q, j)).

  (** The reaction at satellite (p,i). *)
  Lemma d_handle_eq : forall p i f, (p < P)%nat -> (i < S)%nat -> has_net_device f = true ->
    let n := placed adds (p, i) in
    let t := get_target (Z.of_nat P) (Z.of_nat S) (Z.of_nat q) (Z.of_nat j) (Z.of_nat p) (Z.of_nat i) in
    d_handle n f =
    (do it <- rfind (face_matches net h n t (Z.of_nat p) (Z.of_nat i))
                (filter (eligible (ctx n f)) (nh n)) ;
     Ok (send_or_nack (ctx n f) it)).
  Proof.
    intros p i f Hp Hi Hf n t. unfold d_handle, after_receive_interest.
    destruct (Hctx n f) as (T & I & Su & _). rewrite T, I, Hf.
    destruct (d_addr p i n (d_placed p i Hp Hi)) as (a & A1 & A2 & A3 & _).
    rewrite A1. cbn [nw_planes nw_size net launched_net]. rewrite A2, A3.
    destruct (rq_sup (ctx n f)); [reflexivity|reflexivity|congruence].
  Qed.

  Definition ingress_ok (p i : nat) (f : face) : Prop :=
    f = GroundFace \/
    exists k a b, f = IslFace k /\ (a < P)%nat /\ (b < S)%nat /\
      ends links k (placed adds (p, i)) (placed adds (a, b)) /\ d_dist (a, b) <> d_dist (p, i) - 1.

  Lemma ends_fun : forall k p i m m', (p < P)%nat -> (i < S)%nat ->
    ends links k (placed adds (p, i)) m -> ends links k (placed adds (p, i)) m' -> m = m'.
  Proof.
    intros k p i m m' Hp Hi E E'. apply (d_remote k p i m Hp Hi) in E.
    apply (d_remote k p i m' Hp Hi) in E'. congruence.
  Qed.

  (** A direction leading to a nearer neighbour is followed. *)
  Lemma d_hop : forall p i f a b,
    (p < P)%nat -> (i < S)%nat -> (a < P)%nat -> (b < S)%nat -> ingress_ok p i f ->
    torus_neighbour P S (p, i) (a, b) -> d_dist (a, b) = d_dist (p, i) - 1 ->
    let n := placed adds (p, i) in
    let t := get_target (Z.of_nat P) (Z.of_nat S) (Z.of_nat q) (Z.of_nat j) (Z.of_nat p) (Z.of_nat i) in
    (forall k a' b' ad, (a' < P)%nat -> (b' < S)%nat -> torus_neighbour P S (p, i) (a', b') ->
       sat_address_of net n (IslFace k) = Ok ad -> get_plane h ad = Z.of_nat a' -> get_index h ad = Z.of_nat b' ->
       exists r, face_matches net h n t (Z.of_nat p) (Z.of_nat i) (IslFace k) = Ok r /\
       (r = true <-> (a', b') = (a, b))) ->
    face_matches net h n t (Z.of_nat p) (Z.of_nat i) GroundFace = Ok false ->
    exists k, d_handle n f = Ok [SendInterest (IslFace k)] /\ f <> IslFace k /\
      ends links k n (placed adds (a, b)).
  Proof.
    intros p i f a b Hp Hi Ha Hb If T Dd n t Fm Fg.
    destruct (d_neighbour_link _ _ T) as (k0 & E0).
    assert (Hin : In n (map dev_of adds)).
    { apply in_map_iff. exists (p, i, n). split; [reflexivity|]. apply d_placed; auto. }
    assert (Hdev : has_net_device f = true) by (destruct If as [->|(k & ? & ? & -> & _)]; reflexivity).
    assert (Hsat : In (IslFace k0) (filter (eligible (ctx n f)) (nh n))).
    { apply filter_In. split; [apply Hnh; auto; right; eauto|].
      destruct (Hctx n f) as (_ & I & _ & Sc). unfold eligible. rewrite Sc, I. cbn [ad_hoc negb].
      destruct (face_eqb_spec (IslFace k0) f) as [Ef|]; [|reflexivity]. exfalso.
      destruct If as [->|(k & a' & b' & -> & La & Lb & E1 & D1)]; [discriminate|].
      inversion Ef; subst k. pose proof (ends_fun _ _ _ _ _ Hp Hi E0 E1) as X.
      apply d_inj in X; try (apply in_slots; auto). inversion X; subst. congruence. }
    assert (All : forall g, In g (filter (eligible (ctx n f)) (nh n)) ->
      exists r, face_matches net h n t (Z.of_nat p) (Z.of_nat i) g = Ok r /\
      (r = true -> exists k, g = IslFace k /\ f <> IslFace k /\ ends links k n (placed adds (a, b)))).
    { intros g Hg. apply filter_In in Hg. destruct Hg as [Hg El].
      apply Hnh in Hg; auto. destruct Hg as [->|(k & m & -> & E)].
      - exists false. split; auto. discriminate.
      - destruct (d_face k p i m Hp Hi E) as (a' & b' & ad & -> & T' & La & Lb & S1 & S2 & S3).
        destruct (Fm k a' b' ad La Lb T' S1 S2 S3) as (r & Er & Hr). exists r. split; auto.
        intros ->. destruct Hr as [Hr _]. specialize (Hr eq_refl). inversion Hr; subst.
        exists k. repeat split; auto. intros ->.
        destruct (Hctx n (IslFace k)) as (_ & I & _ & Sc). unfold eligible in El. rewrite I in El.
        cbn in El. rewrite Nat.eqb_refl in El. discriminate. }
    pose proof (d_handle_eq p i f Hp Hi Hdev) as HE. cbv zeta in HE. fold n t in HE. rewrite HE. clear HE.
    destruct (rfind_total _ (face_matches net h n t (Z.of_nat p) (Z.of_nat i)) (filter (eligible (ctx n f)) (nh n)))
      as ([g|] & Ef); [intros x Hx; destruct (All x Hx) as (r & Er & _); eauto | | ]; rewrite Ef; cbn [rbind].
    - apply rfind_some in Ef. destruct Ef as (Hg & Mg & _).
      destruct (All g Hg) as (r & Er & Hr). rewrite Mg in Er. inversion Er; subst r.
      destruct (Hr eq_refl) as (k & -> & N & E). exists k. repeat split; auto.
    - exfalso. pose proof (rfind_none _ _ _ Ef _ Hsat) as M.
      destruct (d_face k0 p i _ Hp Hi E0) as (a' & b' & ad & Ex & T' & La & Lb & S1 & S2 & S3).
      apply d_inj in Ex; try (apply in_slots; auto). inversion Ex; subst a' b'.
      destruct (Fm k0 a b ad La Lb T' S1 S2 S3) as (r & Er & Hr). rewrite M in Er. inversion Er; subst.
      destruct Hr as [_ Hr]. specialize (Hr eq_refl). discriminate.
  Qed.

  Lemma nat_next : forall n x, (x < n)%nat -> Z.of_nat ((x + 1) mod n) = (Z.of_nat x + 1) mod Z.of_nat n.
  Proof. intros. rewrite Nat2Z.inj_mod, Nat2Z.inj_add. reflexivity. Qed.
  Lemma nat_prev : forall n x, (x < n)%nat ->
    Z.of_nat ((n + x - 1) mod n) = (Z.of_nat x - 1) mod Z.of_nat n.
  Proof.
    intros. rewrite Nat2Z.inj_mod, Nat2Z.inj_sub, Nat2Z.inj_add by lia.
    apply prev_mod'. lia.
  Qed.
  Lemma nat_next_nb : forall n x y, (x < n)%nat -> (y < n)%nat -> x <> y -> ring_neighbour n x ((x + 1) mod n).
  Proof.
    intros. apply ring_neighbour_spec. rewrite mod_succ by auto. destruct (Nat.eqb_spec (x + 1) n); lia.
  Qed.
  Lemma nat_prev_nb : forall n x y, (x < n)%nat -> (y < n)%nat -> x <> y -> ring_neighbour n x ((n + x - 1) mod n).
  Proof.
    intros. apply ring_neighbour_spec.
    assert (((n + x - 1) mod n)%nat = (if Nat.eqb x 0 then n - 1 else x - 1)%nat) as ->.
    { destruct (Nat.eqb_spec x 0).
      - subst. rewrite Nat.mod_small; lia.
      - replace (n + x - 1)%nat with (x - 1 + 1 * n)%nat by lia. rewrite Nat.mod_add by lia.
        apply Nat.mod_small. lia. }
    destruct (Nat.eqb_spec x 0); lia.
  Qed.

  Lemma d_ground_addr : forall p i, (p < P)%nat -> (i < S)%nat ->
    exists a, sat_address_of net (placed adds (p, i)) GroundFace = Ok a /\
    get_plane h a = Z.of_nat p /\ get_index h a = Z.of_nat i.
  Proof.
    intros p i Hp Hi. destruct (d_addr p i _ (d_placed p i Hp Hi)) as (a & A1 & A2 & A3 & _).
    exists a. unfold sat_address_of, remote_node; cbn [rbind]. rewrite A1. auto.
  Qed.

  Lemma d_here : forall f, ingress_ok q j f -> d_handle (placed adds (q, j)) f = Ok [SendInterest GroundFace].
  Proof.
    intros f If. set (n := placed adds (q, j)).
    assert (Hin : In n (map dev_of adds)).
    { apply in_map_iff. exists (q, j, n). split; [reflexivity|]. apply d_placed; auto. }
    assert (Hdev : has_net_device f = true) by (destruct If as [->|(k & ? & ? & -> & _)]; reflexivity).
    pose proof (d_handle_eq q j f Hq Hj Hdev) as HE. cbv zeta in HE. fold n in HE. rewrite HE. clear HE.
    rewrite get_target_forward, !Z.eqb_refl.
    rewrite (rfind_ok _ _ (fun g => face_eqb g GroundFace)).
    - cbn [rbind].
      assert (Hg : In GroundFace (filter (eligible (ctx n f)) (nh n))).
      { apply filter_In. split; [apply Hnh; auto|].
        destruct (Hctx n f) as (_ & I & _ & Sc). unfold eligible. rewrite Sc. cbn. rewrite andb_false_r. reflexivity. }
      destruct (find (fun g => face_eqb g GroundFace) (filter (eligible (ctx n f)) (nh n))) as [g|] eqn:Ef.
      + apply find_some in Ef. destruct Ef as [_ Ef]. destruct (face_eqb_spec g GroundFace); [|discriminate].
        subst. reflexivity.
      + pose proof (find_none _ _ Ef _ Hg). discriminate.
    - intros g Hg. apply filter_In in Hg. destruct Hg as [Hg _]. apply Hnh in Hg; auto.
      unfold face_matches. destruct Hg as [->|(k & m & -> & E)].
      + destruct (d_ground_addr q j Hq Hj) as (a & A1 & A2 & A3). fold n in A1. rewrite A1. cbn [rbind].
        rewrite A2, A3, !Z.eqb_refl. reflexivity.
      + destruct (d_face k q j m Hq Hj E) as (a' & b' & ad & -> & T' & La & Lb & S1 & S2 & S3).
        fold n in S1. rewrite S1. cbn [rbind]. rewrite S2, S3.
        destruct T' as [(E1 & _ & Rn)|(E1 & _ & Rn)]; cbn [fst snd] in *; apply ring_neighbour_spec in Rn.
        * destruct (Z.eqb_spec (Z.of_nat b') (Z.of_nat j)); [lia|]. rewrite andb_false_r. reflexivity.
        * destruct (Z.eqb_spec (Z.of_nat a') (Z.of_nat q)); [lia|]. reflexivity.
  Qed.

  Lemma d_next : forall p i f, (p < P)%nat -> (i < S)%nat -> (p, i) <> (q, j) -> ingress_ok p i f ->
    exists k a b, (a < P)%nat /\ (b < S)%nat /\ d_dist (a, b) = d_dist (p, i) - 1 /\
      d_handle (placed adds (p, i)) f = Ok [SendInterest (IslFace k)] /\ f <> IslFace k /\
      ends links k (placed adds (p, i)) (placed adds (a, b)).
  Proof.
    intros p i f Hp Hi N If.
    assert (GP : (0 < Z.of_nat P <= 65536)) by lia. assert (GS : (0 < Z.of_nat S <= 65536)) by lia.
    destruct (direction_is_shortest (Z.of_nat P) (Z.of_nat S) (zslot (p, i)) (zslot (q, j)) GP GS
                ltac:(split; cbn; lia) ltac:(split; cbn; lia)) as (_ & HA & HB & HD & _).
    cbn [fst snd zslot] in HA, HB, HD.
    assert (Nz : (Z.of_nat p, Z.of_nat i) <> (Z.of_nat q, Z.of_nat j)).
    { intros E. inversion E. apply N. f_equal; lia. }
    specialize (HD Nz).
    remember (get_target (Z.of_nat P) (Z.of_nat S) (Z.of_nat q) (Z.of_nat j) (Z.of_nat p) (Z.of_nat i)) as t eqn:Et.
    destruct (d_ground_addr p i Hp Hi) as (ga & G1 & G2 & G3).
    assert (Main : forall a b, (a < P)%nat -> (b < S)%nat -> torus_neighbour P S (p, i) (a, b) ->
      towards (Z.of_nat P) (Z.of_nat S) t (Z.of_nat p, Z.of_nat i) = zslot (a, b) ->
      (forall k a' b' ad, (a' < P)%nat -> (b' < S)%nat -> torus_neighbour P S (p, i) (a', b') ->
         sat_address_of net (placed adds (p, i)) (IslFace k) = Ok ad ->
         get_plane h ad = Z.of_nat a' -> get_index h ad = Z.of_nat b' ->
         exists r, face_matches net h (placed adds (p, i)) t (Z.of_nat p) (Z.of_nat i) (IslFace k) = Ok r /\
         (r = true <-> (a', b') = (a, b))) ->
      face_matches net h (placed adds (p, i)) t (Z.of_nat p) (Z.of_nat i) GroundFace = Ok false ->
      exists k a b, (a < P)%nat /\ (b < S)%nat /\ d_dist (a, b) = d_dist (p, i) - 1 /\
      d_handle (placed adds (p, i)) f = Ok [SendInterest (IslFace k)] /\ f <> IslFace k /\
      ends links k (placed adds (p, i)) (placed adds (a, b))).
    { intros a b Ha Hb T Tw Fm Fg.
      assert (Dd : d_dist (a, b) = d_dist (p, i) - 1) by (unfold d_dist; rewrite <- Tw; exact HD).
      rewrite Et in Fm, Fg.
      destruct (d_hop p i f a b Hp Hi Ha Hb If T Dd Fm Fg) as (k & K1 & K2 & K3).
      exists k, a, b. repeat split; auto. }
    destruct (Nat.eq_dec p q) as [Epq|Npq].
    - subst p. assert (Nij : i <> j) by congruence.
      destruct (HB eq_refl ltac:(lia)) as [Ht|Ht]; rewrite Ht in *.
      + pose proof (nat_next_nb S i j Hi Hj Nij) as Rn. pose proof (nat_next S i Hi) as Ea.
        remember ((i + 1) mod S)%nat as a eqn:Ha0. clear Ha0. pose proof (proj1 (ring_neighbour_spec _ _ _) Rn) as Rs.
        apply (Main q a); auto; [lia | left; cbn; auto | unfold zslot; cbn [fst snd towards]; rewrite Ea; reflexivity | | ].
        * intros k a' b' ad La Lb T' S1 S2 S3. unfold face_matches. rewrite S1. cbn [rbind]. rewrite S2, S3.
          cbn [nw_size net launched_net]. rewrite cmod_pos by lia. cbn [rbind]. rewrite <- Ea.
          destruct (Z.eqb_spec (Z.of_nat a') (Z.of_nat q)).
          -- assert (a' = q) by lia. subst a'. eexists; split; [reflexivity|].
             rewrite Z.eqb_eq. split; [intros E; f_equal; lia|intros E; inversion E; reflexivity].
          -- exists false; split; [reflexivity|]. split; [discriminate|]. intros E; inversion E. lia.
        * unfold face_matches. rewrite G1. cbn [rbind]. rewrite G2, G3, Z.eqb_refl.
          cbn [nw_size net launched_net]. rewrite cmod_pos by lia. cbn [rbind]. rewrite <- Ea.
          destruct (Z.eqb_spec (Z.of_nat i) (Z.of_nat a)); [lia|reflexivity].
      + pose proof (nat_prev_nb S i j Hi Hj Nij) as Rn. pose proof (nat_prev S i Hi) as Ea.
        remember ((S + i - 1) mod S)%nat as a eqn:Ha0. clear Ha0. pose proof (proj1 (ring_neighbour_spec _ _ _) Rn) as Rs.
        apply (Main q a); auto; [lia | left; cbn; auto | unfold zslot; cbn [fst snd towards]; rewrite Ea; reflexivity | | ].
        * intros k a' b' ad La Lb T' S1 S2 S3. unfold face_matches. rewrite S1. cbn [rbind]. rewrite S2, S3.
          cbn [nw_size net launched_net]. rewrite cmod_pos by lia. cbn [rbind]. rewrite prev_mod', <- Ea by lia.
          destruct (Z.eqb_spec (Z.of_nat a') (Z.of_nat q)).
          -- assert (a' = q) by lia. subst a'. eexists; split; [reflexivity|].
             rewrite Z.eqb_eq. split; [intros E; f_equal; lia|intros E; inversion E; reflexivity].
          -- exists false; split; [reflexivity|]. split; [discriminate|]. intros E; inversion E. lia.
        * unfold face_matches. rewrite G1. cbn [rbind]. rewrite G2, G3, Z.eqb_refl.
          cbn [nw_size net launched_net]. rewrite cmod_pos by lia. cbn [rbind]. rewrite prev_mod', <- Ea by lia.
          destruct (Z.eqb_spec (Z.of_nat i) (Z.of_nat a)); [lia|reflexivity].
    - destruct (HA ltac:(lia)) as [Ht|Ht]; rewrite Ht in *.
      + pose proof (nat_next_nb P p q Hp Hq Npq) as Rn. pose proof (nat_next P p Hp) as Ea.
        remember ((p + 1) mod P)%nat as a eqn:Ha0. clear Ha0. pose proof (proj1 (ring_neighbour_spec _ _ _) Rn) as Rs.
        apply (Main a i); auto; [lia | right; cbn; auto | unfold zslot; cbn [fst snd towards]; rewrite Ea; reflexivity | | ].
        * intros k a' b' ad La Lb T' S1 S2 S3. unfold face_matches. rewrite S1. cbn [rbind]. rewrite S2.
          cbn [nw_planes net launched_net]. rewrite cmod_pos by lia. cbn [rbind]. rewrite <- Ea.
          eexists; split; [reflexivity|]. rewrite Z.eqb_eq. split.
          -- intros E. assert (a' = a) by lia. subst a'.
             destruct T' as [(E1 & _)|(E1 & _)]; cbn [fst snd] in *; [lia|congruence].
          -- intros E; inversion E; reflexivity.
        * unfold face_matches. rewrite G1. cbn [rbind]. rewrite G2.
          cbn [nw_planes net launched_net]. rewrite cmod_pos by lia. cbn [rbind]. rewrite <- Ea.
          destruct (Z.eqb_spec (Z.of_nat p) (Z.of_nat a)); [lia|reflexivity].
      + pose proof (nat_prev_nb P p q Hp Hq Npq) as Rn. pose proof (nat_prev P p Hp) as Ea.
        remember ((P + p - 1) mod P)%nat as a eqn:Ha0. clear Ha0. pose proof (proj1 (ring_neighbour_spec _ _ _) Rn) as Rs.
        apply (Main a i); auto; [lia | right; cbn; auto | unfold zslot; cbn [fst snd towards]; rewrite Ea; reflexivity | | ].
        * intros k a' b' ad La Lb T' S1 S2 S3. unfold face_matches. rewrite S1. cbn [rbind]. rewrite S2.
          cbn [nw_planes net launched_net]. rewrite cmod_pos by lia. cbn [rbind]. rewrite prev_mod', <- Ea by lia.
          eexists; split; [reflexivity|]. rewrite Z.eqb_eq. split.
          -- intros E. assert (a' = a) by lia. subst a'.
             destruct T' as [(E1 & _)|(E1 & _)]; cbn [fst snd] in *; [lia|congruence].
          -- intros E; inversion E; reflexivity.
        * unfold face_matches. rewrite G1. cbn [rbind]. rewrite G2.
          cbn [nw_planes net launched_net]. rewrite cmod_pos by lia. cbn [rbind]. rewrite prev_mod', <- Ea by lia.
          destruct (Z.eqb_spec (Z.of_nat p) (Z.of_nat a)); [lia|reflexivity].
  Qed.

  Lemma d_dist_nonneg : forall x, (0 < P)%nat -> (0 < S)%nat -> 0 <= d_dist x.
  Proof.
    intros x H1 H2. unfold d_dist, griddist.
    pose proof (ringdist_nonneg (Z.of_nat P) (fst (zslot x)) (fst (zslot (q, j))) ltac:(lia)).
    pose proof (ringdist_nonneg (Z.of_nat S) (snd (zslot x)) (snd (zslot (q, j))) ltac:(lia)).
    clear - H H0. lia.
  Qed.

  Lemma d_route : forall m p i f, (p < P)%nat -> (i < S)%nat -> ingress_ok p i f ->
    d_dist (p, i) = Z.of_nat m ->
    exists path, length path = m /\ route links d_handle (placed adds (p, i)) f path (placed adds (q, j)).
  Proof.
    induction m as [|m IH]; intros p i f Hp Hi If Dm.
    - destruct (Nat.eq_dec p q) as [->|N].
      + destruct (Nat.eq_dec i j) as [->|N].
        * exists []. split; [reflexivity|]. constructor. apply d_here; auto.
        * exfalso. destruct (d_next q i f Hp Hi ltac:(congruence) If) as (_ & a & b & Ha & Hb & Dd & _).
          assert (0 <= d_dist (a, b)); [apply d_dist_nonneg; lia|lia].
      + exfalso. destruct (d_next p i f Hp Hi ltac:(congruence) If) as (_ & a & b & Ha & Hb & Dd & _).
        assert (0 <= d_dist (a, b)); [apply d_dist_nonneg; lia|lia].
    - assert (N : (p, i) <> (q, j)).
      { intros E. inversion E; subst. unfold d_dist, griddist in Dm. cbn [fst snd zslot] in Dm.
        rewrite !ringdist_spec in Dm by lia. rewrite !Z.sub_diag in Dm. lia. }
      destruct (d_next p i f Hp Hi N If) as (k & a & b & Ha & Hb & Dd & K1 & K2 & K3).
      destruct (IH a b (IslFace k) Ha Hb) as (path & L & Rt).
      + right. exists k, p, i. repeat split; auto; [|lia].
        destruct K3; [right|left]; auto.
      + lia.
      + exists (placed adds (a, b) :: path). split; [simpl; lia|]. econstructor; eauto.
  Qed.
End Delivery.
