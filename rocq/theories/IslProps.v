(** C14 - C16. *)
From Coq Require Import ZArith List Lia Bool Arith Permutation.
From Verif Require Import Base SatAddrModel SatAddrProofs ConstellationModel ConstellationSpec
  ConstellationProofs IslModel IslSpec IslProofs.
Import ListNotations.
Open Scope nat_scope.

Definition placed (adds : list (nat * nat * nat)) (x : slot) : nat :=
  match added_at adds (fst x) (snd x) with Some d => d | None => 0 end.

Lemma full_history : forall P S adds, admissible P S adds -> length adds = P * S ->
  forall p i, p < P -> i < S -> exists d, added_at adds p i = Some d.
Proof.
  intros P S adds [ND F] L p i Hp Hi.
  assert (incl (slots P S) (map slot_of adds)) as I.
  { apply NoDup_length_incl; [exact ND | rewrite slots_length, map_length; lia |].
    intros [q j] H. apply in_map_iff in H. destruct H as (a & E & Ha).
    rewrite Forall_forall in F. apply F in Ha. rewrite E in Ha. apply in_slots. exact Ha. }
  specialize (I (p, i) (proj2 (in_slots P S p i) (conj Hp Hi))).
  apply in_map_iff in I. destruct I as ([[q j] d] & E & Ha). unfold slot_of in E; simpl in E.
  inversion E; subst. exists d. apply added_at_In; auto.
Qed.

Lemma dev_once : forall adds p i p' i' (d : nat), NoDup (map dev_of adds) ->
  In (p, i, d) adds -> In (p', i', d) adds -> (p, i) = (p', i').
Proof.
  induction adds as [|[[q j] e] r IH]; simpl; intros p i p' i' d ND H1 H2; [contradiction|].
  inversion ND; subst.
  assert (K : forall p i, In (p, i, e) r -> False).
  { intros a b Hab. apply H3. apply in_map_iff. exists (a, b, e). auto. }
  unfold dev_of in *; simpl in *.
  destruct H1 as [H1|H1], H2 as [H2|H2].
  - congruence.
  - inversion H1; subst. exfalso; eauto.
  - inversion H2; subst. exfalso; eauto.
  - eapply IH; eauto.
Qed.

Lemma full_complete : forall h id P S adds c l,
  run_adds h (con_new id P S) adds = Ok (c, l) -> length adds = P * S ->
  complete c (placed adds) /\ con_planes c = P /\ con_plane_size c = S /\ con_size c = P * S.
Proof.
  intros h id P S adds c l R L.
  destruct (run_adds_wf _ _ _ _ _ (new_wf id P S) R) as (W & _ & EP & ES & En). cbn in EP, ES, En.
  destruct (run_adds_admissible _ _ _ _ _ (new_wf id P S) R) as [Ad _]. cbn in Ad.
  split; [|repeat split; auto; lia].
  split; [exact W|]. rewrite EP, ES. intros p i Hp Hi.
  rewrite (run_new_at _ _ _ _ _ _ _ R p i Hp Hi).
  destruct (full_history P S adds Ad L p i Hp Hi) as (d & E).
  unfold placed; cbn [fst snd]. rewrite E. reflexivity.
Qed.

Lemma placed_inj : forall P S adds, admissible P S adds -> length adds = P * S ->
  NoDup (map dev_of adds) -> inj_on P S (placed adds).
Proof.
  intros P S adds Ad L ND [p i] [p' i'] H1 H2 E. apply in_slots in H1. apply in_slots in H2.
  destruct (full_history P S adds Ad L p i) as (d & E1); try tauto.
  destruct (full_history P S adds Ad L p' i') as (d' & E2); try tauto.
  unfold placed in E; cbn [fst snd] in E. rewrite E1, E2 in E. subst d'.
  eapply dev_once; eauto using added_at_inv.
Qed.

Lemma chan_devices : forall l k0 k a b, nth_error l k = Some (a, b) ->
  filter (fun d => isl_chan d =? k0 + k) (install_pairs k0 l) = [mkIsl a (k0 + k); mkIsl b (k0 + k)].
Proof.
  assert (Z0 : forall l k1 k, k < k1 -> filter (fun d => isl_chan d =? k) (install_pairs k1 l) = []).
  { induction l as [|[x y] l IH]; simpl; intros k1 k H; [reflexivity|].
    rewrite (proj2 (Nat.eqb_neq k1 k)) by lia. apply IH. lia. }
  induction l as [|[x y] l IH]; intros k0 k a b H; [destruct k; discriminate|].
  destruct k; simpl in H |- *.
  - inversion H; subst. rewrite Nat.add_0_r, Nat.eqb_refl. rewrite Z0 by lia. reflexivity.
  - rewrite (proj2 (Nat.eqb_neq k0 (k0 + Datatypes.S k))) by lia.
    replace (k0 + Datatypes.S k) with (Datatypes.S k0 + k) by lia. apply IH. exact H.
Qed.

(** C14.  [ids] are the constellation ids of the nodes passed to the installer. *)
Theorem grid_is_torus : forall h id P S adds c addrs ids,
  run_adds h (con_new id P S) adds = Ok (c, addrs) -> length adds = P * S ->
  NoDup (map dev_of adds) -> is_u16 id -> (id <> 0)%Z ->
  Forall (eq id) ids -> length ids = P * S ->
  exists links, install_grid ids c = Ok links /\
  (forall p i p' i' a b, added_at adds p i = Some a -> added_at adds p' i' = Some b ->
     (torus_neighbour P S (p, i) (p', i') -> joins links a b = 1) /\
     (~ torus_neighbour P S (p, i) (p', i') -> joins links a b = 0)) /\
  (forall a b, In (a, b) links -> a <> b /\ In a (map dev_of adds) /\ In b (map dev_of adds)) /\
  (forall k a b, nth_error links k = Some (a, b) ->
     filter (fun d => isl_chan d =? k) (install_pairs 0 links) = [mkIsl a k; mkIsl b k]).
Proof.
  intros h id P S adds c addrs ids R L ND U N F Li.
  destruct (run_adds_admissible _ _ _ _ _ (new_wf id P S) R) as [Ad _]. cbn in Ad.
  destruct (full_complete _ _ _ _ _ _ _ R L) as (C & EP & ES & En).
  pose proof (placed_inj P S adds Ad L ND) as I.
  exists (dev_links (placed adds) (coord_links P S)). split; [|split; [|split]].
  - rewrite <- EP, <- ES. apply (install_grid_complete c (placed adds) id); auto; [rewrite EP, ES|]; lia.
  - intros p i p' i' a b Ea Eb.
    assert (Ha : In (p, i) (slots P S) /\ placed adds (p, i) = a).
    { split; [|unfold placed; simpl; rewrite Ea; reflexivity].
      apply added_at_inv in Ea. destruct Ad as [_ Fa]. rewrite Forall_forall in Fa.
      apply Fa in Ea. apply in_slots. exact Ea. }
    assert (Hb : In (p', i') (slots P S) /\ placed adds (p', i') = b).
    { split; [|unfold placed; simpl; rewrite Eb; reflexivity].
      apply added_at_inv in Eb. destruct Ad as [_ Fa]. rewrite Forall_forall in Fa.
      apply Fa in Eb. apply in_slots. exact Eb. }
    destruct Ha as [Ha <-], Hb as [Hb <-]. apply joins_count; auto.
  - intros a b H. split; [eapply dev_links_no_loop; eauto|].
    unfold dev_links in H. apply in_map_iff in H. destruct H as ([[p i] [p' i']] & E & Hin).
    cbn [fst snd] in E. injection E as <- <-. apply links_in_grid in Hin. destruct Hin as (H1 & H2 & _).
    apply in_slots in H1. apply in_slots in H2.
    destruct (full_history P S adds Ad L p i) as (d & E1); try tauto.
    destruct (full_history P S adds Ad L p' i') as (d' & E2); try tauto.
    unfold placed; cbn [fst snd]. rewrite E1, E2.
    split; apply in_map_iff; [exists (p, i, d)|exists (p', i', d')]; split; auto using added_at_inv.
  - intros k a b H. apply (chan_devices _ 0 k a b H).
Qed.
Print Assumptions grid_is_torus.

(** A 3 by 2 constellation: 6 + 3 links. *)
Example grid_is_torus_3_2 :
  match run_adds LittleEndian (con_new 1 3 2)
          [(0, 0, 10); (0, 1, 11); (1, 0, 12); (1, 1, 13); (2, 0, 14); (2, 1, 15)] with
  | Ok (c, _) => install_grid (repeat 1%Z 6) c =
      Ok [(10, 11); (10, 12); (11, 13); (12, 13); (12, 14); (13, 15); (14, 15); (14, 10); (15, 11)]
  | _ => False
  end.
Proof. vm_compute. reflexivity. Qed.

(** C15 *)
Theorem device_counts : forall h id P S adds c addrs ids,
  run_adds h (con_new id P S) adds = Ok (c, addrs) -> length adds = P * S ->
  NoDup (map dev_of adds) -> is_u16 id -> (id <> 0)%Z ->
  Forall (eq id) ids -> length ids = P * S ->
  exists links, install_grid ids c = Ok links /\
  (forall d, In d (map dev_of adds) ->
     length (devices_of d (install_pairs 0 links)) = ring_degree S + ring_degree P) /\
  length (install_pairs 0 links) = 2 * length links /\
  2 * length links = P * S * (ring_degree S + ring_degree P).
Proof.
  intros h id P S adds c addrs ids R L ND U N F Li.
  destruct (run_adds_admissible _ _ _ _ _ (new_wf id P S) R) as [Ad _]. cbn in Ad.
  destruct (full_complete _ _ _ _ _ _ _ R L) as (C & EP & ES & En).
  pose proof (placed_inj P S adds Ad L ND) as I.
  exists (dev_links (placed adds) (coord_links P S)).
  assert (G : forall d, In d (map dev_of adds) ->
     length (devices_of d (install_pairs 0 (dev_links (placed adds) (coord_links P S)))) = ring_degree S + ring_degree P).
  { intros d Hd. apply in_map_iff in Hd. destruct Hd as ([[p i] e] & E & Hin). unfold dev_of in E; simpl in E. subst e.
    assert (Hs : In (p, i) (slots P S)).
    { apply in_slots. destruct Ad as [_ Fa]. rewrite Forall_forall in Fa. apply Fa in Hin. exact Hin. }
    assert (Ed : placed adds (p, i) = d).
    { unfold placed; cbn [fst snd]. rewrite (added_at_In _ _ _ _ (proj1 Ad) Hin). reflexivity. }
    rewrite devices_of_links by (intros a b; apply (dev_links_no_loop P S); auto).
    unfold dev_links. rewrite filter_length_map. cbn [fst snd].
    rewrite (filter_ext_in' _ _ (touches (p, i))).
    + apply in_slots in Hs. apply degree_count; tauto.
    + intros [x y] H. apply links_in_grid in H. destruct H as (Hx & Hy & _). unfold touches; cbn [fst snd].
      subst d. rewrite !(D_eqb P S) by auto. reflexivity. }
  split; [|split; [exact G|split; [apply install_pairs_length|]]].
  - rewrite <- EP, <- ES. apply (install_grid_complete c (placed adds) id); auto; [rewrite EP, ES|]; lia.
  - rewrite <- (install_pairs_length _ 0).
    set (ds := install_pairs 0 (dev_links (placed adds) (coord_links P S))) in *.
    assert (A : forall e, In e ds -> In (isl_node e) (map dev_of adds)).
    { intros [n k] He. unfold ds in He. apply install_pairs_chan in He.
      destruct He as (a & b & _ & Hn & Hor). apply nth_error_In in Hn.
      unfold dev_links in Hn. apply in_map_iff in Hn. destruct Hn as ([[p i] [p' i']] & E & Hin).
      cbn [fst snd] in E. injection E as <- <-. apply links_in_grid in Hin. destruct Hin as (H1 & H2 & _).
      apply in_slots in H1. apply in_slots in H2.
      destruct (full_history P S adds Ad L p i) as (d & E1); try tauto.
      destruct (full_history P S adds Ad L p' i') as (d' & E2); try tauto.
      unfold placed in Hor; cbn [fst snd] in Hor. rewrite E1, E2 in Hor. cbn [isl_node].
      destruct Hor; subst; apply in_map_iff; [exists (p, i, d)|exists (p', i', d')]; split; auto using added_at_inv. }
    rewrite <- L, <- (map_length dev_of adds).
    assert (B : forall ns, NoDup ns -> forall es, (forall e, In e es -> In (isl_node e) ns) ->
              (forall n, In n ns -> length (devices_of n es) = ring_degree S + ring_degree P) ->
              length es = length ns * (ring_degree S + ring_degree P)).
    { clear. induction ns as [|n ns IH]; intros NDn es Hin Hlen.
      - destruct es as [|e es]; [reflexivity|]. exfalso. apply (Hin e). left; auto.
      - inversion NDn; subst. cbn [length Nat.mul].
        rewrite <- (Hlen n (or_introl eq_refl)) at 1.
        rewrite <- (IH H2 (filter (fun e => negb (isl_node e =? n)) es)).
        + unfold devices_of. clear. induction es as [|e es IHe]; [reflexivity|].
          cbn [filter]. destruct (isl_node e =? n); cbn [negb length] in *; lia.
        + intros e He. apply filter_In in He. destruct He as [He Hn].
          destruct (Hin e He) as [->|]; auto. rewrite Nat.eqb_refl in Hn. discriminate.
        + intros m Hm. rewrite <- (Hlen m (or_intror Hm)). f_equal. unfold devices_of.
          clear - Hm H1. induction es as [|e es IHe]; [reflexivity|].
          cbn [filter]. destruct (Nat.eqb_spec (isl_node e) n) as [E|E]; cbn [negb].
          * destruct (Nat.eqb_spec (isl_node e) m); [subst; congruence|exact IHe].
          * cbn [filter]. destruct (isl_node e =? m); rewrite IHe; reflexivity. }
    apply B; auto.
Qed.
Print Assumptions device_counts.

Example device_counts_3_2 :
  length (devices_of 14 (install_pairs 0
    [(10, 11); (10, 12); (11, 13); (12, 13); (12, 14); (13, 15); (14, 15); (14, 10); (15, 11)])) = 3.
Proof. reflexivity. Qed.

(** C16, full statement: any incomplete constellation is refused by an assertion. *)
Definition incomplete_rejected : Prop := forall h id P S adds c addrs ids,
  run_adds h (con_new id P S) adds = Ok (c, addrs) -> length adds < P * S ->
  Forall (eq id) ids -> install_grid ids c = Assert.

Theorem incomplete_rejected_refuted : ~ incomplete_rejected.
Proof.
  intros H.
  destruct (run_adds LittleEndian (con_new 1 1 2) [(0, 0, 5)]) as [[c l]| | |] eqn:E; try discriminate E.
  specialize (H LittleEndian 1%Z 1 2 [(0, 0, 5)] c l [1%Z] E ltac:(simpl; lia) ltac:(repeat constructor)).
  vm_compute in E. inversion E; subst. vm_compute in H. discriminate.
Qed.
Print Assumptions incomplete_rejected_refuted.

Lemma rflat_map_ub : forall A B (f : A -> result (list B)) l,
  (forall x, In x l -> f x = UB \/ exists y, f x = Ok y) -> (exists x, In x l /\ f x = UB) ->
  rflat_map f l = UB.
Proof.
  induction l as [|a l IH]; simpl; intros H (x & Hx & E); [contradiction|].
  destruct (H a (or_introl eq_refl)) as [Ea|(y & Ea)]; rewrite Ea; [reflexivity|]. simpl.
  destruct Hx as [->|Hx]; [congruence|]. rewrite IH; eauto.
Qed.

Lemma rflat_map_ub_or_ok : forall A B (f : A -> result (list B)) l,
  (forall x, In x l -> f x = UB \/ exists y, f x = Ok y) ->
  rflat_map f l = UB \/ exists y, rflat_map f l = Ok y.
Proof.
  induction l as [|a l IH]; simpl; intros H; [eauto|].
  destruct (H a (or_introl eq_refl)) as [Ea|(y & Ea)]; rewrite Ea; [auto|]. simpl.
  destruct IH as [E|(z & E)]; auto; rewrite E; simpl; eauto.
Qed.

Lemma sat_node_ub_or_ok : forall c p i, wf c -> p < con_planes c -> i < con_plane_size c ->
  sat_node c p i = UB \/ exists d, sat_node c p i = Ok d.
Proof.
  intros c p i W Hp Hi. unfold sat_node, get_satellite.
  rewrite (proj2 (Nat.leb_le p (con_planes c))) by lia.
  rewrite (proj2 (Nat.leb_le i (con_plane_size c))) by lia. simpl.
  destruct (con_at_shaped _ _ _ p i W Hp Hi) as (s & ->). simpl. destruct s; simpl; eauto.
Qed.

Lemma isl_cell_ub_or_ok : forall c i j, wf c -> i < con_planes c -> j < con_plane_size c ->
  isl_cell c (con_planes c) (con_plane_size c) i j = UB \/
  exists y, isl_cell c (con_planes c) (con_plane_size c) i j = Ok y.
Proof.
  intros c i j W Hi Hj. unfold isl_cell.
  destruct (sat_node_ub_or_ok c i j W Hi Hj) as [->|(d & ->)]; cbn [rbind]; [auto|].
  match goal with |- rbind ?m _ = UB \/ _ => assert (Hm : m = UB \/ exists y, m = Ok y) end.
  { destruct (Nat.ltb_spec j (con_plane_size c - 1)).
    - destruct (sat_node_ub_or_ok c i (j + 1) W Hi ltac:(lia)) as [->|(e & ->)]; simpl; eauto.
    - destruct ((j =? con_plane_size c - 1) && negb (j =? 0) && negb (j =? 1)); eauto.
      destruct (sat_node_ub_or_ok c i 0 W Hi ltac:(lia)) as [->|(e & ->)]; simpl; eauto. }
  destruct Hm as [->|(y & ->)]; cbn [rbind]; [auto|].
  match goal with |- rbind ?m _ = UB \/ _ => assert (Hm : m = UB \/ exists y, m = Ok y) end.
  { destruct (Nat.ltb_spec i (con_planes c - 1)).
    - destruct (sat_node_ub_or_ok c (i + 1) j W ltac:(lia) Hj) as [->|(e & ->)]; simpl; eauto.
    - destruct ((i =? con_planes c - 1) && negb (i =? 0) && negb (i =? 1)); eauto.
      destruct (sat_node_ub_or_ok c 0 j W ltac:(lia) Hj) as [->|(e & ->)]; simpl; eauto. }
  destruct Hm as [->|(z & ->)]; cbn [rbind]; eauto.
Qed.

(** What the installer does on an incomplete constellation: it refuses a node list of the wrong length,
    and with a node list of the right length (one node per satellite launched) it always reaches the null
    satellite.  Missing from C16: the rejection in the second case. *)
Theorem incomplete_partial : forall h id P S adds c addrs ids,
  run_adds h (con_new id P S) adds = Ok (c, addrs) -> length adds < P * S ->
  is_u16 id -> (id <> 0)%Z -> Forall (eq id) ids ->
  install_grid ids c = if length ids =? length adds then UB else Assert.
Proof.
  intros h id P S adds c addrs ids R L U N F.
  destruct (run_adds_wf _ _ _ _ _ (new_wf id P S) R) as (W & _ & EP & ES & En). cbn in EP, ES, En.
  destruct (run_adds_admissible _ _ _ _ _ (new_wf id P S) R) as [Ad _]. cbn in Ad.
  unfold install_grid, get_size. rewrite (same_constellation_ok id ids U N F). cbn [rbind].
  rewrite EP, ES, En. rewrite (proj2 (Nat.leb_le (length adds) (P * S))) by lia.
  cbn [rbind assert_]. destruct (length ids =? length adds); cbn [rbind assert_]; [|reflexivity].
  assert (exists x, In x (slots P S) /\ ~ In x (map slot_of adds)) as ([p i] & Hs & Hn).
  { assert (G : forall l, NoDup l -> length adds < length l -> exists x, In x l /\ ~ In x (map slot_of adds)).
    { intros l NDl Ll. destruct (Exists_dec (fun x => ~ In x (map slot_of adds)) l) as [E|E].
      - intros x. destruct (in_dec (fun a b => reflect_dec _ _ (slot_eqb_spec a b)) x (map slot_of adds)); auto.
      - apply Exists_exists in E. exact E.
      - exfalso. assert (incl l (map slot_of adds)).
        { intros x Hx. destruct (in_dec (fun a b => reflect_dec _ _ (slot_eqb_spec a b)) x (map slot_of adds)); auto.
          exfalso. apply E. apply Exists_exists. eauto. }
        apply NoDup_incl_length in H; auto. rewrite map_length in H. lia. }
    apply G; [apply NoDup_slots|rewrite slots_length; lia]. }
  apply in_slots in Hs. destruct Hs as [Hp Hi].
  assert (Hub : isl_cell c P S p i = UB).
  { unfold isl_cell, sat_node at 1, get_satellite. rewrite EP, ES.
    rewrite (proj2 (Nat.leb_le p P)) by lia. rewrite (proj2 (Nat.leb_le i S)) by lia. simpl.
    rewrite (run_new_at _ _ _ _ _ _ _ R p i Hp Hi). rewrite added_at_not_in by auto. reflexivity. }
  apply rflat_map_ub.
  - intros x Hx. apply in_seq in Hx. apply rflat_map_ub_or_ok. intros y Hy. apply in_seq in Hy.
    rewrite <- EP, <- ES. apply isl_cell_ub_or_ok; auto; lia.
  - exists p. split; [apply in_seq; lia|]. apply rflat_map_ub.
    + intros y Hy. apply in_seq in Hy. rewrite <- EP, <- ES. apply isl_cell_ub_or_ok; auto; lia.
    + exists i. split; [apply in_seq; lia|exact Hub].
Qed.
Print Assumptions incomplete_partial.

Example incomplete_partial_case :
  match run_adds LittleEndian (con_new 1 1 2) [(0, 0, 5)] with
  | Ok (c, _) => install_grid [1; 1]%Z c = Assert /\ install_grid [1]%Z c = UB
  | _ => False
  end.
Proof. vm_compute. auto. Qed.
