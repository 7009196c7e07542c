From Coq Require Import ZArith List Lia Bool Arith Permutation.
From Verif Require Import Base SatAddrModel SatAddrProofs ConstellationModel ConstellationSpec
  ConstellationProofs IslModel IslSpec.
Import ListNotations.
Open Scope nat_scope.

(** ** The same links on coordinates *)
Definition step_out (n a : nat) : list nat :=
  if a <? n - 1 then [a + 1]
  else if (a =? n - 1) && negb (a =? 0) && negb (a =? 1) then [0] else [].

Definition cell (P S : nat) (x : slot) : list (slot * slot) :=
  map (fun j => (x, (fst x, j))) (step_out S (snd x)) ++
  map (fun i => (x, (i, snd x))) (step_out P (fst x)).

Definition coord_links (P S : nat) : list (slot * slot) := flat_map (cell P S) (slots P S).

Lemma step_out_spec : forall n a b, a < n ->
  (In b (step_out n a) <-> (a + 1 < n /\ b = a + 1) \/ (a + 1 = n /\ 3 <= n /\ b = 0)).
Proof.
  intros n a b H. unfold step_out.
  destruct (Nat.ltb_spec a (n - 1)).
  - simpl. split; [intros [<-|[]]; left; lia | intros [[_ ->]|]; [auto|lia]].
  - destruct (Nat.eqb_spec a (n - 1)), (Nat.eqb_spec a 0), (Nat.eqb_spec a 1); simpl;
      (split; [intros []; try lia; try contradiction | intros]); try lia; auto.
Qed.

Lemma step_out_nodup : forall n a, NoDup (step_out n a).
Proof.
  intros. unfold step_out.
  destruct (a <? n - 1); [repeat constructor; auto|].
  destruct ((a =? n - 1) && negb (a =? 0) && negb (a =? 1)); repeat constructor; auto.
Qed.

Lemma coord_links_spec : forall P S p i p' i',
  In ((p, i), (p', i')) (coord_links P S) <->
  p < P /\ i < S /\
  ((p' = p /\ ((i + 1 < S /\ i' = i + 1) \/ (i + 1 = S /\ 3 <= S /\ i' = 0))) \/
   (i' = i /\ ((p + 1 < P /\ p' = p + 1) \/ (p + 1 = P /\ 3 <= P /\ p' = 0)))).
Proof.
  intros. unfold coord_links. rewrite in_flat_map. split.
  - intros ([a b] & Hs & Hc). apply in_slots in Hs. unfold cell in Hc; simpl in Hc.
    apply in_app_iff in Hc. destruct Hc as [Hc|Hc]; apply in_map_iff in Hc;
      destruct Hc as (k & E & Hk); inversion E; subst; apply step_out_spec in Hk; try lia.
  - intros (Hp & Hi & H). exists (p, i). split; [apply in_slots; auto|].
    unfold cell; simpl. apply in_app_iff.
    destruct H as [[-> H]|[-> H]]; [left|right]; apply in_map_iff; eexists; split; try reflexivity;
      apply step_out_spec; auto.
Qed.

Lemma NoDup_app_intro : forall A (l1 l2 : list A), NoDup l1 -> NoDup l2 ->
  (forall x, In x l1 -> ~ In x l2) -> NoDup (l1 ++ l2).
Proof.
  induction l1; simpl; intros l2 N1 N2 H; auto.
  inversion N1; subst. constructor.
  - rewrite in_app_iff. intros [X|X]; [auto|]. eapply H; eauto.
  - apply IHl1; auto.
Qed.

Lemma NoDup_map_inj : forall A B (f : A -> B) l, (forall x y, f x = f y -> x = y) ->
  NoDup l -> NoDup (map f l).
Proof.
  induction l; simpl; intros H N; constructor; inversion N; subst.
  - intros X. apply in_map_iff in X. destruct X as (y & E & Hy).
    apply H2. rewrite (H a y); auto.
  - apply IHl; auto.
Qed.

Lemma cell_nodup : forall P S x, fst x < P -> snd x < S -> NoDup (cell P S x).
Proof.
  intros P S [p i] Hp Hi. unfold cell; simpl in *.
  apply NoDup_app_intro.
  - apply NoDup_map_inj; [|apply step_out_nodup]. intros. congruence.
  - apply NoDup_map_inj; [|apply step_out_nodup]. intros. congruence.
  - intros y Hy Hz. apply in_map_iff in Hy. apply in_map_iff in Hz.
    destruct Hy as (a & <- & Ha). destruct Hz as (b & E & Hb). inversion E; subst.
    apply step_out_spec in Ha; auto. apply step_out_spec in Hb; auto. lia.
Qed.

Lemma coord_links_nodup : forall P S, NoDup (coord_links P S).
Proof.
  intros P S. unfold coord_links.
  assert (G : forall l, NoDup l -> (forall x, In x l -> fst x < P /\ snd x < S) ->
              NoDup (flat_map (cell P S) l)).
  { induction l as [|x l IH]; simpl; intros N H; [constructor|].
    inversion N; subst. apply NoDup_app_intro; auto.
    - apply cell_nodup; apply H; auto.
    - intros y Hy Hz. apply in_flat_map in Hz. destruct Hz as (x' & Hx' & Hz).
      assert (fst y = x). { unfold cell in Hy. apply in_app_iff in Hy.
        destruct Hy as [Hy|Hy]; apply in_map_iff in Hy; destruct Hy as (? & <- & _); reflexivity. }
      assert (fst y = x'). { unfold cell in Hz. apply in_app_iff in Hz.
        destruct Hz as [Hz|Hz]; apply in_map_iff in Hz; destruct Hz as (? & <- & _); reflexivity. }
      subst. contradiction. }
  apply G; [apply NoDup_slots|]. intros [p i] H. apply in_slots in H. exact H.
Qed.

Lemma mod_succ : forall n a, a < n -> (a + 1) mod n = if a + 1 =? n then 0 else a + 1.
Proof.
  intros. destruct (Nat.eqb_spec (a + 1) n).
  - rewrite e. apply Nat.mod_same. lia.
  - apply Nat.mod_small. lia.
Qed.

(** Ring neighbours without modulus. *)
Lemma ring_neighbour_spec : forall n a b, ring_neighbour n a b <->
  a < n /\ b < n /\ a <> b /\
  (b = a + 1 \/ (a + 1 = n /\ b = 0) \/ a = b + 1 \/ (b + 1 = n /\ a = 0)).
Proof.
  intros. unfold ring_neighbour. split.
  - intros (Ha & Hb & N & H). rewrite !mod_succ in H by auto.
    destruct (Nat.eqb_spec (a + 1) n), (Nat.eqb_spec (b + 1) n); lia.
  - intros (Ha & Hb & N & H). rewrite !mod_succ by auto.
    destruct (Nat.eqb_spec (a + 1) n), (Nat.eqb_spec (b + 1) n); lia.
Qed.

(** Directed ring edges as the loops emit them. *)
Definition ring_edge (n a b : nat) : Prop :=
  (a + 1 < n /\ b = a + 1) \/ (a + 1 = n /\ 3 <= n /\ b = 0).

Lemma ring_edge_neighbour : forall n a b, ring_neighbour n a b <->
  a < n /\ b < n /\ (ring_edge n a b \/ ring_edge n b a).
Proof. intros. rewrite ring_neighbour_spec. unfold ring_edge. lia. Qed.

Lemma ring_edge_range : forall n a b, ring_edge n a b -> a < n /\ b < n /\ a <> b.
Proof. unfold ring_edge. lia. Qed.

Lemma ring_edge_one_way : forall n a b, ring_edge n a b -> ~ ring_edge n b a.
Proof. unfold ring_edge. lia. Qed.

Lemma coord_links_edge : forall P S p i p' i',
  In ((p, i), (p', i')) (coord_links P S) <->
  (p' = p /\ p < P /\ ring_edge S i i') \/ (i' = i /\ i < S /\ ring_edge P p p').
Proof.
  intros. rewrite coord_links_spec. unfold ring_edge. split.
  - intros (Hp & Hi & [[-> H]|[-> H]]); [left|right]; auto.
  - intros [(-> & Hp & H)|(-> & Hi & H)]; (split; [lia|split; [lia|]]); [left|right]; auto.
Qed.

Lemma links_one_way : forall P S x y, In (x, y) (coord_links P S) -> ~ In (y, x) (coord_links P S).
Proof.
  intros P S [p i] [p' i']. rewrite !coord_links_edge.
  intros [(-> & Hp & H)|(-> & Hi & H)] [(E & Hp' & H')|(E & Hi' & H')]; subst;
    solve [eapply ring_edge_one_way; eauto | apply ring_edge_range in H; lia
          | apply ring_edge_range in H'; lia].
Qed.

(** A neighbouring pair is linked, in exactly one direction. *)
Lemma links_orientation : forall P S x y,
  torus_neighbour P S x y <->
  In (x, y) (coord_links P S) \/ In (y, x) (coord_links P S).
Proof.
  intros P S [p i] [p' i']. unfold torus_neighbour; cbn [fst snd].
  rewrite !ring_edge_neighbour, !coord_links_edge. split.
  - intros [(-> & Hp & _ & _ & [H|H])|(-> & Hp & _ & _ & [H|H])]; tauto.
  - intros [[(-> & Hp & H)|(-> & Hp & H)]|[(-> & Hp & H)|(-> & Hp & H)]];
      pose proof (ring_edge_range _ _ _ H); tauto.
Qed.

Lemma links_in_grid : forall P S x y, In (x, y) (coord_links P S) ->
  In x (slots P S) /\ In y (slots P S) /\ x <> y.
Proof.
  intros P S [p i] [p' i'] H. apply coord_links_spec in H. rewrite !in_slots.
  repeat split; try lia. intros E. inversion E. lia.
Qed.

(** ** From coordinates to devices *)

Definition complete (c : constellation) (D : slot -> dev) : Prop :=
  wf c /\ forall p i, p < con_planes c -> i < con_plane_size c ->
    con_at (con_grid c) p i = Ok (Some (D (p, i))).

Lemma sat_node_complete : forall c D p i, complete c D -> p < con_planes c -> i < con_plane_size c ->
  sat_node c p i = Ok (D (p, i)).
Proof.
  intros c D p i [W H] Hp Hi. unfold sat_node, get_satellite.
  rewrite (proj2 (Nat.leb_le p (con_planes c))) by lia.
  rewrite (proj2 (Nat.leb_le i (con_plane_size c))) by lia. simpl.
  rewrite H by auto. reflexivity.
Qed.

Definition dev_links (D : slot -> dev) (l : list (slot * slot)) : list (dev * dev) :=
  map (fun e => (D (fst e), D (snd e))) l.

Lemma isl_cell_complete : forall c D i j, complete c D -> i < con_planes c -> j < con_plane_size c ->
  isl_cell c (con_planes c) (con_plane_size c) i j =
  Ok (dev_links D (cell (con_planes c) (con_plane_size c) (i, j))).
Proof.
  intros c D i j C Hi Hj. unfold isl_cell, cell, dev_links, step_out; simpl.
  rewrite (sat_node_complete c D i j) by auto. cbn [rbind].
  destruct (Nat.ltb_spec j (con_plane_size c - 1)).
  - rewrite (sat_node_complete c D i (j + 1)) by (auto; lia). cbn [rbind].
    destruct (Nat.ltb_spec i (con_planes c - 1)).
    + rewrite (sat_node_complete c D (i + 1) j) by (auto; lia). reflexivity.
    + destruct ((i =? con_planes c - 1) && negb (i =? 0) && negb (i =? 1)) eqn:E; [|reflexivity].
      rewrite (sat_node_complete c D 0 j) by (auto; lia). reflexivity.
  - destruct ((j =? con_plane_size c - 1) && negb (j =? 0) && negb (j =? 1)) eqn:E.
    + rewrite (sat_node_complete c D i 0) by (auto; lia). cbn [rbind].
      destruct (Nat.ltb_spec i (con_planes c - 1)).
      * rewrite (sat_node_complete c D (i + 1) j) by (auto; lia). reflexivity.
      * destruct ((i =? con_planes c - 1) && negb (i =? 0) && negb (i =? 1)) eqn:E2; [|reflexivity].
        rewrite (sat_node_complete c D 0 j) by (auto; lia). reflexivity.
    + cbn [rbind]. destruct (Nat.ltb_spec i (con_planes c - 1)).
      * rewrite (sat_node_complete c D (i + 1) j) by (auto; lia). reflexivity.
      * destruct ((i =? con_planes c - 1) && negb (i =? 0) && negb (i =? 1)) eqn:E2; [|reflexivity].
        rewrite (sat_node_complete c D 0 j) by (auto; lia). reflexivity.
Qed.

Lemma rflat_map_ok : forall A B (f : A -> result (list B)) g l,
  (forall x, In x l -> f x = Ok (g x)) -> rflat_map f l = Ok (flat_map g l).
Proof.
  induction l; simpl; intros H; [reflexivity|].
  rewrite H by auto. simpl. rewrite IHl by auto. reflexivity.
Qed.

Lemma same_constellation_ok : forall id ids, is_u16 id -> (id <> 0)%Z -> Forall (eq id) ids ->
  same_constellation 0 ids = Ok tt.
Proof.
  intros id ids U N F. destruct ids as [|a r]; [reflexivity|].
  inversion F; subst. simpl. rewrite u16_id by auto.
  clear F. induction H2; [reflexivity|]. subst. simpl.
  destruct (Z.eqb_spec x 0); [contradiction|]. rewrite Z.eqb_refl. simpl. auto.
Qed.

Lemma install_grid_complete : forall c D id ids, complete c D ->
  con_size c <= con_planes c * con_plane_size c ->
  is_u16 id -> (id <> 0)%Z -> Forall (eq id) ids -> length ids = con_size c ->
  install_grid ids c = Ok (dev_links D (coord_links (con_planes c) (con_plane_size c))).
Proof.
  intros c D id ids C Hs U N F L. unfold install_grid, get_size.
  rewrite (same_constellation_ok id ids U N F). cbn [rbind].
  rewrite (proj2 (Nat.leb_le _ _) Hs). cbn [rbind assert_].
  rewrite L, Nat.eqb_refl. cbn [rbind assert_].
  rewrite (rflat_map_ok _ _ _ (fun i => flat_map (fun j => dev_links D (cell (con_planes c) (con_plane_size c) (i, j)))
     (seq 0 (con_plane_size c)))).
  - f_equal. unfold coord_links, slots, dev_links. rewrite flat_map_flat_map.
    induction (seq 0 (con_planes c)) as [|i l IH]; simpl; [reflexivity|].
    rewrite map_app, IH. f_equal. clear IH.
    induction (seq 0 (con_plane_size c)) as [|j m IH]; simpl; [reflexivity|].
    rewrite map_app, IH. reflexivity.
  - intros i Hi. apply in_seq in Hi. apply rflat_map_ok. intros j Hj. apply in_seq in Hj.
    apply isl_cell_complete; auto; lia.
Qed.

(** ** Counting *)

Lemma filter_length_map : forall A B (f : A -> B) p l,
  length (filter p (map f l)) = length (filter (fun x => p (f x)) l).
Proof. induction l; simpl; [reflexivity|]. destruct (p (f a)); simpl; auto. Qed.

Lemma NoDup_same_length : forall A (l1 l2 : list A), NoDup l1 -> NoDup l2 ->
  (forall x, In x l1 <-> In x l2) -> length l1 = length l2.
Proof.
  intros. apply Permutation_length. apply NoDup_Permutation; auto.
Qed.

Lemma filter_ext_in' : forall A (f g : A -> bool) l, (forall x, In x l -> f x = g x) ->
  filter f l = filter g l.
Proof.
  induction l; simpl; intros; [reflexivity|]. rewrite H by auto. rewrite IHl by auto. reflexivity.
Qed.

Definition slot_eqb (x y : slot) : bool := (fst x =? fst y) && (snd x =? snd y).
Lemma slot_eqb_spec : forall x y, reflect (x = y) (slot_eqb x y).
Proof.
  intros [p i] [p' i']. unfold slot_eqb; simpl.
  destruct (Nat.eqb_spec p p'), (Nat.eqb_spec i i'); simpl; constructor; congruence.
Qed.

Definition inj_on (P S : nat) (D : slot -> dev) : Prop :=
  forall x y, In x (slots P S) -> In y (slots P S) -> D x = D y -> x = y.

Lemma D_eqb : forall P S D x y, inj_on P S D -> In x (slots P S) -> In y (slots P S) ->
  (D x =? D y) = slot_eqb x y.
Proof.
  intros P S D x y I Hx Hy. destruct (slot_eqb_spec x y), (Nat.eqb_spec (D x) (D y)); auto.
  - subst. congruence.
  - exfalso. apply n, I; auto.
Qed.

Lemma joins_count : forall P S D, inj_on P S D -> forall x y, In x (slots P S) -> In y (slots P S) ->
  (torus_neighbour P S x y -> joins (dev_links D (coord_links P S)) (D x) (D y) = 1) /\
  (~ torus_neighbour P S x y -> joins (dev_links D (coord_links P S)) (D x) (D y) = 0).
Proof.
  intros P S D I x y Hx Hy. unfold joins, dev_links. rewrite filter_length_map. cbn [fst snd].
  rewrite (filter_ext_in' _ _ (fun e => (slot_eqb (fst e) x && slot_eqb (snd e) y) ||
                                        (slot_eqb (fst e) y && slot_eqb (snd e) x))).
  2:{ intros [a b] H. apply links_in_grid in H. destruct H as (Ha & Hb & _). cbn [fst snd].
      rewrite !(D_eqb P S D) by auto. reflexivity. }
  match goal with |- context [filter ?f (coord_links P S)] => set (pr := f) end.
  assert (ND : NoDup (filter pr (coord_links P S))) by (apply NoDup_filter, coord_links_nodup).
  assert (M : forall e, In e (filter pr (coord_links P S)) <->
              In e (coord_links P S) /\ (e = (x, y) \/ e = (y, x))).
  { intros [a b]. rewrite filter_In. unfold pr; cbn [fst snd].
    destruct (slot_eqb_spec a x), (slot_eqb_spec b y), (slot_eqb_spec a y), (slot_eqb_spec b x);
      subst; simpl; intuition congruence. }
  split.
  - intros T. apply links_orientation in T. destruct T as [T1|T1]; pose proof (links_one_way _ _ _ _ T1) as T2.
    + apply (NoDup_same_length _ _ [(x, y)] ND); [repeat constructor; auto|].
      intros e. rewrite M. split; [intros [H [->| ->]]; [left; auto|contradiction]|].
      intros [<-|[]]. auto.
    + apply (NoDup_same_length _ _ [(y, x)] ND); [repeat constructor; auto|].
      intros e. rewrite M. split; [intros [H [->| ->]]; [contradiction|left; auto]|].
      intros [<-|[]]. auto.
  - intros NT. apply (NoDup_same_length _ _ [] ND); [constructor|].
    intros e. rewrite M. split; [|intros []]. intros [H E]. apply NT. apply links_orientation.
    destruct E; subst; auto.
Qed.

(** Degrees. *)
Definition touches (x : slot) (e : slot * slot) : bool := slot_eqb (fst e) x || slot_eqb (snd e) x.

Definition ring_out (n a : nat) : list nat := if a + 1 <? n then [a + 1] else if 3 <=? n then [0] else [].
Definition ring_in (n a : nat) : list nat := if 0 <? a then [a - 1] else if 3 <=? n then [n - 1] else [].

Lemma ring_out_in_degree : forall n a, a < n -> length (ring_out n a) + length (ring_in n a) = ring_degree n.
Proof.
  intros n a H. unfold ring_out, ring_in.
  destruct n as [|[|[|n]]]; [lia|..].
  - assert (a = 0) by lia. subst. reflexivity.
  - assert (a = 0 \/ a = 1) by lia. destruct H0; subst; reflexivity.
  - destruct (a + 1 <? S (S (S n))), (0 <? a); reflexivity.
Qed.

Definition edges_at (P S : nat) (x : slot) : list (slot * slot) :=
  map (fun j => (x, (fst x, j))) (ring_out S (snd x)) ++
  map (fun j => ((fst x, j), x)) (ring_in S (snd x)) ++
  map (fun i => (x, (i, snd x))) (ring_out P (fst x)) ++
  map (fun i => ((i, snd x), x)) (ring_in P (fst x)).

Lemma in_ring_out : forall n a b, a < n ->
  (In b (ring_out n a) <-> (a + 1 < n /\ b = a + 1) \/ (a + 1 = n /\ 3 <= n /\ b = 0)).
Proof.
  intros. unfold ring_out. destruct (Nat.ltb_spec (a + 1) n); cbn [In]; [lia|].
  destruct (Nat.leb_spec 3 n); cbn [In]; lia.
Qed.

Lemma in_ring_in : forall n a b, a < n ->
  (In b (ring_in n a) <-> (b + 1 = a) \/ (a = 0 /\ 3 <= n /\ b + 1 = n)).
Proof.
  intros. unfold ring_in. destruct (Nat.ltb_spec 0 a); cbn [In]; [lia|].
  destruct (Nat.leb_spec 3 n); cbn [In]; lia.
Qed.

Lemma ring_out_nodup : forall n a, NoDup (ring_out n a).
Proof. intros. unfold ring_out. destruct (a + 1 <? n); [|destruct (3 <=? n)]; repeat constructor; auto. Qed.
Lemma ring_in_nodup : forall n a, NoDup (ring_in n a).
Proof. intros. unfold ring_in. destruct (0 <? a); [|destruct (3 <=? n)]; repeat constructor; auto. Qed.

Lemma in_edges_at : forall P S p i e, p < P -> i < S ->
  (In e (edges_at P S (p, i)) <->
   (exists j, In j (ring_out S i) /\ e = ((p, i), (p, j))) \/
   (exists j, In j (ring_in S i) /\ e = ((p, j), (p, i))) \/
   (exists j, In j (ring_out P p) /\ e = ((p, i), (j, i))) \/
   (exists j, In j (ring_in P p) /\ e = ((j, i), (p, i)))).
Proof.
  intros. unfold edges_at; cbn [fst snd]. rewrite !in_app_iff, !in_map_iff.
  split; intros; repeat match goal with
    | H : _ \/ _ |- _ => destruct H
    | H : exists _, _ |- _ => destruct H
    | H : _ /\ _ |- _ => destruct H end; subst; eauto 10.
Qed.

Lemma edges_at_nodup : forall P S p i, p < P -> i < S -> NoDup (edges_at P S (p, i)).
Proof.
  intros P S p i Hp Hi. unfold edges_at; cbn [fst snd].
  repeat apply NoDup_app_intro;
    try (apply NoDup_map_inj; [intros; congruence | first [apply ring_out_nodup | apply ring_in_nodup]]);
    intros e H1 H2; rewrite ?in_app_iff, ?in_map_iff in *;
    repeat match goal with
    | H : _ \/ _ |- _ => destruct H
    | H : exists _, _ |- _ => destruct H
    | H : _ /\ _ |- _ => destruct H
    | H : In _ (ring_out _ _) |- _ => apply in_ring_out in H; [|assumption]
    | H : In _ (ring_in _ _) |- _ => apply in_ring_in in H; [|assumption]
    end; subst; try match goal with H : (_, _) = (_, _) |- _ => inversion H; subst end; lia.
Qed.

Lemma touching_edges : forall P S p i, p < P -> i < S -> forall e,
  In e (filter (touches (p, i)) (coord_links P S)) <-> In e (edges_at P S (p, i)).
Proof.
  intros P S p i Hp Hi [[a b] [c d]]. rewrite filter_In, in_edges_at by auto.
  rewrite coord_links_spec. unfold touches; cbn [fst snd].
  split.
  - intros [H T]. apply orb_true_iff in T.
    destruct T as [T|T]; [destruct (slot_eqb_spec (a, b) (p, i)) as [E|]|destruct (slot_eqb_spec (c, d) (p, i)) as [E|]];
      try discriminate; inversion E; subst.
    + destruct H as (_ & _ & [[-> H]|[-> H]]).
      * left. exists d. rewrite in_ring_out by auto. auto.
      * right; right; left. exists c. rewrite in_ring_out by auto. auto.
    + destruct H as (Ha & Hb & [[E2 H]|[E2 H]]); subst.
      * right; left. exists b. rewrite in_ring_in by auto. split; [lia|auto].
      * right; right; right. exists a. rewrite in_ring_in by auto. split; [lia|auto].
  - intros [(j & Hj & E)|[(j & Hj & E)|[(j & Hj & E)|(j & Hj & E)]]]; inversion E; subst;
      (rewrite in_ring_out in Hj by auto) || (rewrite in_ring_in in Hj by auto);
      (split; [lia|]); apply orb_true_iff;
      [left | right | left | right];
      match goal with |- slot_eqb ?x ?y = true => destruct (slot_eqb_spec x y); congruence end.
Qed.

Lemma degree_count : forall P S p i, p < P -> i < S ->
  length (filter (touches (p, i)) (coord_links P S)) = ring_degree S + ring_degree P.
Proof.
  intros P S p i Hp Hi.
  rewrite (NoDup_same_length _ _ (edges_at P S (p, i))).
  - unfold edges_at; cbn [fst snd]. rewrite !app_length, !map_length.
    rewrite <- (ring_out_in_degree S i Hi), <- (ring_out_in_degree P p Hp). lia.
  - apply NoDup_filter, coord_links_nodup.
  - apply edges_at_nodup; auto.
  - apply touching_edges; auto.
Qed.

Lemma install_pairs_length : forall l k, length (install_pairs k l) = 2 * length l.
Proof. induction l; simpl; intros; [reflexivity|]. rewrite IHl. lia. Qed.

Lemma devices_of_links : forall n l k, (forall a b, In (a, b) l -> a <> b) ->
  length (devices_of n (install_pairs k l)) =
  length (filter (fun e => (fst e =? n) || (snd e =? n)) l).
Proof.
  induction l as [|[a b] l IH]; simpl; intros k H; [reflexivity|].
  assert (N : a <> b) by (apply H; auto).
  unfold devices_of in *; simpl.
  specialize (IH (S k) ltac:(intros; apply H; auto)).
  destruct (Nat.eqb_spec a n), (Nat.eqb_spec b n); simpl; rewrite IH; lia.
Qed.

Lemma dev_links_no_loop : forall P S D, inj_on P S D -> forall a b,
  In (a, b) (dev_links D (coord_links P S)) -> a <> b.
Proof.
  intros P S D I a b H. unfold dev_links in H. apply in_map_iff in H.
  destruct H as ([x y] & E & Hin). simpl in E. inversion E; subst.
  apply links_in_grid in Hin. destruct Hin as (Hx & Hy & N). intros Q. apply N, I; auto.
Qed.

(** Channel k has its two devices at the two ends of link k. *)
Lemma install_pairs_chan : forall l k0 k n, In (mkIsl n k) (install_pairs k0 l) <->
  exists a b, k0 <= k /\ nth_error l (k - k0) = Some (a, b) /\ (n = a \/ n = b).
Proof.
  induction l as [|[a b] l IH]; simpl; intros k0 k n.
  - split; [intros []|]. intros (a & b & _ & H & _). destruct (k - k0); discriminate.
  - rewrite IH. split.
    + intros [H|[H|H]].
      * inversion H; subst. exists n, b. rewrite Nat.sub_diag. simpl. auto.
      * inversion H; subst. exists a, n. rewrite Nat.sub_diag. simpl. auto.
      * destruct H as (x & y & H1 & H2 & H3). exists x, y. split; [lia|]. split; auto.
        replace (k - k0) with (S (k - S k0)) by lia. exact H2.
    + intros (x & y & H1 & H2 & H3).
      destruct (Nat.eq_dec k k0).
      * subst. rewrite Nat.sub_diag in H2. simpl in H2. inversion H2; subst.
        destruct H3; subst; auto.
      * right; right. exists x, y. split; [lia|]. split; auto.
        replace (k - k0) with (S (k - S k0)) in H2 by lia. exact H2.
Qed.
