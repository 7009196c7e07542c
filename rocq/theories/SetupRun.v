From Coq Require Import ZArith QArith List Lia Bool Arith.
From Verif Require Import Base SatAddrModel SatAddrProofs ConstellationModel ConstellationSpec ConstellationProofs LaunchModel LaunchSpec
  LaunchProofs ChannelModel IslModel IslSpec IslProofs IslProps SetupModel SetupSpec SetupProofs.
Import ListNotations.
Open Scope nat_scope.

(** * The check on constellation numbers *)
Lemma same_later : forall ids cur, (cur <> 0)%Z -> same_constellation cur ids = Ok tt <-> Forall (eq cur) ids.
Proof.
  induction ids as [|a ids IH]; intros cur N; cbn [same_constellation]; [split; [constructor|reflexivity]|].
  apply Z.eqb_neq in N. rewrite N. destruct (Z.eqb_spec cur a) as [E|E]; cbn [assert_ rbind].
  - rewrite IH by (apply Z.eqb_neq; exact N). split; [intros H; constructor; auto|]. intros H. inversion H; auto.
  - split; [discriminate|]. intros H. inversion H; congruence.
Qed.

Lemma same_first : forall ids, Forall (fun a => (0 < a < 65536)%Z) ids -> same_constellation 0 ids = Ok tt <-> exists id, Forall (eq id) ids.
Proof.
  intros [|a ids] F; cbn [same_constellation].
  - split; [exists 0%Z; constructor|reflexivity].
  - inversion F; subst. change (0 =? 0)%Z with true. cbn iota. unfold u16. rewrite Z.mod_small by lia. rewrite same_later by lia. split.
    + intros H. exists a. constructor; auto.
    + intros (id & H). inversion H; subst. assumption.
Qed.

Lemma same_split : forall ids c, same_constellation 0 ids = Ok tt ->
  install_grid ids c = install_grid (repeat 1%Z (length ids)) c.
Proof.
  intros ids c E. unfold install_grid. rewrite E, repeat_length.
  rewrite (same_constellation_ok 1 (repeat 1%Z (length ids))); [reflexivity|unfold is_u16; lia|lia|].
  clear. induction (length ids); cbn [repeat]; constructor; auto.
Qed.

Lemma grid_same : forall ids c l, install_grid ids c = Ok l -> same_constellation 0 ids = Ok tt.
Proof. intros ids c l E. unfold install_grid in E. destruct (same_constellation 0 ids) as [[]| | |]; try discriminate E. reflexivity. Qed.

Section Run.
Variable debug : bool.
Variable ho : host.
Variable plans : nat -> plan.
Hypothesis plans_ok : forall h, 0 < pl_P (plans h) /\ 0 < pl_S (plans h).
Hypothesis ids_ok : forall h, (0 < pl_id (plans h) < 65536)%Z.
Variable b : before.
Variable first : Z.

Notation world := (world Q).
Notation inv := (inv ho plans b first).
Notation mkb := (mk (b_pos b)).
Notation launched_by := (launched_by b).
Notation good := (good plans b).
Notation may := (may plans b).

(** A node is launched at most once. *)
Lemma mk_launch : forall cs k c, nth_error (mkb cs) k = Some (true, c) -> b_pos b (cl_node c) = false /\ called (cl_node c) (firstn k cs) = false.
Proof.
  intros cs. induction cs as [|c0 cs IH] using rev_ind; intros k c H; [destruct k; discriminate|].
  rewrite mk_snoc in H. apply nth_error_snoc in H. rewrite mk_length in H. destruct H as [[L H]|[-> E]].
  - destruct (IH _ _ H) as [H1 H2]. split; [exact H1|]. rewrite firstn_app. replace (k - length cs) with 0 by lia. cbn [firstn]. rewrite app_nil_r. exact H2.
  - injection E as E ->. symmetry in E. apply andb_prop in E. destruct E as [E1 E2]. apply negb_true_iff in E1, E2.
    split; [exact E1|]. rewrite firstn_app, Nat.sub_diag, firstn_all. cbn [firstn]. rewrite app_nil_r. exact E2.
Qed.

Lemma mk_nth : forall cs k x, nth_error (mkb cs) k = Some x -> nth_error cs k = Some (snd x).
Proof. intros cs k x H. rewrite <- (marks_snd (b_pos b) cs []). apply map_nth_error. exact H. Qed.

Lemma firstn_before : forall B (l : list B) i k x, nth_error l i = Some x -> i < k -> In x (firstn k l).
Proof.
  induction l as [|y l IH]; intros [|i] [|k] x H L; cbn in *; try discriminate; try lia.
  - injection H as ->. auto.
  - right. apply (IH i); [exact H|lia].
Qed.

Lemma launch_once : forall cs k c k' c', nth_error (mkb cs) k = Some (true, c) -> nth_error (mkb cs) k' = Some (true, c') -> cl_node c = cl_node c' -> k = k'.
Proof.
  assert (Half : forall cs k c k' c', nth_error (mkb cs) k = Some (true, c) -> nth_error (mkb cs) k' = Some (true, c') -> cl_node c = cl_node c' -> k < k' -> False).
  { intros cs k c k' c' H H' E L. apply mk_launch in H'. destruct H' as [_ H']. rewrite <- E in H'.
    assert (X : called (cl_node c) (firstn k' cs) = true); [|congruence].
    apply called_in. exists c. split; [|reflexivity]. apply firstn_before with (i := k); [|exact L]. apply mk_nth in H. exact H. }
  intros cs k c k' c' H H' E. destruct (Nat.lt_trichotomy k k') as [L|[L|L]]; [exfalso; exact (Half cs k c k' c' H H' E L)|exact L|exfalso; exact (Half cs k' c' k c H' H (eq_sym E) L)].
Qed.

Lemma launched_in : forall h cs k, In k (launched_by h cs) <-> exists c, nth_error (mkb cs) k = Some (true, c) /\ cl_helper c = h.
Proof.
  intros h cs k. unfold SetupProofs.launched_by. rewrite places_in. split.
  - intros (i & [m c] & -> & H & F). unfold launch_of in F. cbn [fst snd] in F. apply andb_prop in F. destruct F as [F1 F2]. apply Nat.eqb_eq in F2.
    subst m. exists c. auto.
  - intros (c & H & E). exists k, (true, c). split; [reflexivity|]. split; [exact H|]. unfold launch_of. cbn. apply Nat.eqb_eq. exact E.
Qed.

(** * Links *)

(** The node of a device. *)
Definition node_of (cs : list call) (k : nat) : nat := match nth_error cs k with Some c => cl_node c | None => 0 end.

Lemma end_ok : forall cs cons ty links w k h chan second, inv cs cons ty links w -> In k (launched_by h cs) ->
  exists w', link_end w (node_of cs k) chan second = Ok w' /\ inv cs cons ty (links ++ [mkIsl (node_of cs k) chan]) w' /\ sw_devs w' = sw_devs w /\ sw_helpers w' = sw_helpers w.
Proof.
  intros cs cons ty links w k h chan second I H. apply launched_in in H. destruct H as (c & H & Eh).
  destruct (mk_launch _ _ _ H) as [Hp _]. pose proof (mk_nth _ _ _ H) as Hn. cbn [snd] in Hn.
  assert (En : node_of cs k = cl_node c) by (unfold node_of; rewrite Hn; reflexivity). rewrite En. set (n := cl_node c) in *.
  assert (Cn : called n cs = true) by (apply called_in; exists c; split; [eapply nth_error_In; exact Hn|reflexivity]).
  unfold link_end. rewrite (i_pos _ _ _ _ _ _ _ _ _ I n), (i_orbit _ _ _ _ _ _ _ _ _ I n), Hp, Cn. cbn [negb andb orb abort_unless rbind].
  rewrite !orb_true_r. cbn [negb]. rewrite andb_false_r. eexists. split; [reflexivity|]. cbn [sw_devs sw_helpers]. split; [|split; reflexivity].
  rewrite (i_links _ _ _ _ _ _ _ _ _ I).
  assert (Same : forall m (P : snode -> Prop), P (sw_nodes w m) -> (forall s, s = sw_nodes w n -> P s -> P (add_dev s (RIsl (length links)))) -> P (upd (sw_nodes w) n (add_dev (sw_nodes w n) (RIsl (length links))) m)).
  { intros m P H0 H1. destruct (Nat.eq_dec m n) as [->|Ne]; [rewrite upd_same; apply H1; auto|rewrite upd_other by exact Ne; exact H0]. }
  constructor; cbn [sw_helpers sw_chans sw_nodes sw_devs sw_links sw_type sw_mac];
    try apply I; try (intros m; apply Same; [apply I|]; intros s _ Hs; exact Hs).
  - intros m. apply Same; [apply I|]. intros s _ Hs. cbn [add_dev sn_devs]. rewrite gs_of_app. cbn. rewrite app_nil_r. exact Hs.
  - intros m. rewrite places_app. cbn [places]. rewrite app_nil_r. cbn [isl_node plus]. destruct (Nat.eq_dec m n) as [->|Ne].
    + rewrite upd_same, Nat.eqb_refl. cbn [add_dev sn_devs]. rewrite isl_of_app, (i_isl _ _ _ _ _ _ _ _ _ I n). reflexivity.
    + rewrite upd_other by exact Ne. destruct (Nat.eqb_spec n m); [congruence|]. rewrite app_nil_r. apply I.
  - intros m. pose proof (i_first _ _ _ _ _ _ _ _ _ I m) as F. destruct (Nat.eq_dec m n) as [->|Ne]; [|rewrite upd_other by exact Ne; exact F].
    rewrite upd_same. cbn [add_dev sn_devs]. destruct (sn_devs (sw_nodes w n)) as [|x l] eqn:E; [|exact F].
    exfalso. destruct (places (on n) 0 (mkb cs)) as [|y l] eqn:E2; [|discriminate F].
    assert (X : In k (places (on n) 0 (mkb cs))); [|rewrite E2 in X; destruct X].
    apply places_in. exists k, (true, c). split; [reflexivity|]. split; [exact H|]. unfold on. cbn. apply Nat.eqb_refl.
  - reflexivity.
Qed.

Lemma pairs_ok : forall h l cs cons ty links w, inv cs cons ty links w -> Nat.Even (length links) ->
  (forall x, In x l -> In (fst x) (launched_by h cs) /\ In (snd x) (launched_by h cs)) ->
  exists w', link_pairs w l = Ok w' /\
    inv cs cons ty (links ++ install_pairs (length links / 2) (map (fun x => (node_of cs (fst x), node_of cs (snd x))) l)) w' /\
    Nat.Even (length (links ++ install_pairs (length links / 2) (map (fun x => (node_of cs (fst x), node_of cs (snd x))) l))).
Proof.
  induction l as [|[x y] l IH]; intros cs cons ty links w I Ev H.
  - cbn [map install_pairs link_pairs]. exists w. rewrite app_nil_r. auto.
  - destruct (H (x, y) (or_introl eq_refl)) as [Hx Hy]. cbn [fst snd] in Hx, Hy. cbn [link_pairs map].
    assert (Dev : forall k, In k (launched_by h cs) -> exists d, nth_error (sw_devs w) k = Some d /\ dv_node d = node_of cs k).
    { intros k Hk. apply launched_in in Hk. destruct Hk as (c & Hk & _). rewrite (i_devs _ _ _ _ _ _ _ _ _ I _ _ Hk). eexists. split; [reflexivity|].
      unfold device_of. cbn [dv_node snd]. unfold node_of. rewrite (mk_nth _ _ _ Hk). reflexivity. }
    destruct (Dev x Hx) as (dx & Ex & Nx). destruct (Dev y Hy) as (dy & Ey & Ny). rewrite Ex, Ey, Nx, Ny. rewrite (i_links _ _ _ _ _ _ _ _ _ I).
    destruct (end_ok _ _ _ _ _ _ _ (length links / 2) false I Hx) as (w1 & E1 & I1 & D1 & _). rewrite E1. cbn [rbind].
    destruct (end_ok _ _ _ _ _ _ _ (length links / 2) true I1 Hy) as (w2 & E2 & I2 & D2 & _). rewrite E2. cbn [rbind].
    assert (L2 : length ((links ++ [mkIsl (node_of cs x) (length links / 2)]) ++ [mkIsl (node_of cs y) (length links / 2)]) = length links + 2) by (rewrite !app_length; cbn; lia).
    destruct (IH cs cons ty _ w2 I2) as (w3 & E3 & I3 & Ev3).
    { rewrite L2. destruct Ev as [m Ev]. exists (m + 1). lia. }
    { intros z Z. apply H. right. exact Z. }
    exists w3. split; [exact E3|]. rewrite L2 in I3, Ev3. replace ((length links + 2) / 2) with (S (length links / 2)) in I3, Ev3.
    2:{ replace (length links + 2) with (length links + 1 * 2) by lia. rewrite Nat.div_add by lia. lia. }
    rewrite <- !app_assoc in I3, Ev3. split; [exact I3|exact Ev3].
Qed.

(** * Installing links *)

(** The satellites of a constellation, as slots filled. *)
Lemma help_run : forall cs cons ty links w h, inv cs cons ty links w ->
  exists l, run_adds ho (con_new (pl_id (plans h)) (pl_P (plans h)) (pl_S (plans h))) (launch_adds (pl_S (plans h)) (launched_by h cs)) = Ok (h_con (sw_helpers w h), l).
Proof. intros cs cons ty links w h I. destruct (i_help _ _ _ _ _ _ _ _ _ I h) as [R _]. exact R. Qed.

Lemma launch_adds_devs : forall S ds, map dev_of (launch_adds S ds) = ds.
Proof.
  intros S ds. unfold launch_adds. rewrite map_map. unfold dev_of. cbn [snd].
  assert (G : forall (l : list nat) s, map (fun x : nat * nat => snd x) (combine (seq s (length l)) l) = l).
  { induction l as [|x l IH]; intros s; cbn; [reflexivity|]. rewrite IH. reflexivity. }
  apply G.
Qed.

(** The first device of a node. *)
Lemma first_id_ok : forall cs cons ty links w n, inv cs cons ty links w ->
  (forall id, first_id ho w n = Ok id <-> exists k c, nth_error (mkb cs) k = Some (true, c) /\ cl_node c = n /\ id = pl_id (plans (cl_helper c))).
Proof.
  intros cs cons ty links w n I id. unfold first_id. pose proof (i_first _ _ _ _ _ _ _ _ _ I n) as F.
  destruct (places (on n) 0 (mkb cs)) as [|k0 r] eqn:E.
  - destruct (sn_devs (sw_nodes w n)); [|discriminate F]. split; [discriminate|]. intros (k & c & H & Hn & _). exfalso.
    assert (X : In k (places (on n) 0 (mkb cs))); [|rewrite E in X; destruct X].
    apply places_in. exists k, (true, c). split; [reflexivity|]. split; [exact H|]. unfold on. cbn. apply Nat.eqb_eq. exact Hn.
  - destruct (sn_devs (sw_nodes w n)) as [|[k|k] dl]; try discriminate F. cbn in F. injection F as ->.
    assert (X : In k0 (places (on n) 0 (mkb cs))) by (rewrite E; left; reflexivity).
    apply places_in in X. destruct X as (i & [m c] & Ei & Hk & On). cbn in Ei. subst i. unfold on in On. cbn [snd] in On. apply Nat.eqb_eq in On.
    rewrite (i_devs _ _ _ _ _ _ _ _ _ I _ _ Hk). unfold device_of. cbn [fst snd]. destruct m.
    + split.
      * intros Q. injection Q as <-. exists k0, c. split; [exact Hk|]. split; [exact On|].
        unfold get_constellation, sat_make. cbn -[htons ntohs]. specialize (ids_ok (cl_helper c)). rewrite u16_id by (unfold is_u16; lia). rewrite htons_inv by (unfold is_u16; lia). reflexivity.
      * intros (k & c' & Hk' & Hn & ->). assert (k = k0) by (eapply launch_once; [exact Hk'|exact Hk|congruence]). subst k.
        assert (c' = c) by congruence. subst c'. f_equal.
        unfold get_constellation, sat_make. cbn -[htons ntohs]. specialize (ids_ok (cl_helper c)). rewrite u16_id by (unfold is_u16; lia). rewrite htons_inv by (unfold is_u16; lia). reflexivity.
    + split; [discriminate|]. intros (k & c' & Hk' & Hn & _). exfalso.
      (* the first call on the node is a launch, if any is *)
      assert (Hin : In k (places (on n) 0 (mkb cs))) by (apply places_in; exists k, (true, c'); split; [reflexivity|]; split; [exact Hk'|]; unfold on; cbn; apply Nat.eqb_eq; exact Hn).
      destruct (mk_launch _ _ _ Hk') as [_ Nb].
      assert (k0 < k).
      { rewrite E in Hin. destruct Hin as [->|Hin]; [congruence|].
        assert (Sorted : forall (l : list (bool * call)) from y ys, places (on n) from l = y :: ys -> Forall (fun z => y < z) ys).
        { clear. induction l as [|x l IH]; intros from y ys H; cbn [places] in H; [discriminate|]. destruct (on n x); cbn [app] in H.
          - injection H as -> <-. apply Forall_forall. intros z Z. apply places_in in Z. destruct Z as (i & _ & -> & _). lia.
          - eapply IH. exact H. }
        specialize (Sorted _ _ _ _ E). rewrite Forall_forall in Sorted. apply Sorted. exact Hin. }
      assert (called (cl_node c') (firstn k cs) = true); [|congruence].
      apply called_in. exists c. split; [|congruence]. apply firstn_before with (i := k0); [|assumption]. apply mk_nth in Hk. exact Hk.
Qed.

Lemma first_ids_ok : forall cs cons ty links w ns ids, inv cs cons ty links w -> first_ids ho w ns = Ok ids ->
  length ids = length ns /\ (forall n, In n ns -> exists id, In id ids /\ first_id ho w n = Ok id) /\ (forall id, In id ids -> exists n, In n ns /\ first_id ho w n = Ok id).
Proof.
  intros cs cons ty links w ns ids I. revert ids. induction ns as [|n ns IH]; intros ids E; cbn [first_ids] in E.
  - injection E as <-. split; [reflexivity|]. split; intros ? [].
  - destruct (first_id ho w n) as [a| | |] eqn:En; try discriminate E. cbn [rbind] in E.
    destruct (first_ids ho w ns) as [r| | |]; try discriminate E. cbn [rbind] in E. injection E as <-.
    destruct (IH _ eq_refl) as (L & H1 & H2). cbn [length]. split; [lia|]. split.
    + intros m [<-|M]; [exists a; split; [left; reflexivity|exact En]|]. destruct (H1 m M) as (id & H & Ei). exists id. split; [right; exact H|exact Ei].
    + intros id [<-|M]; [exists n; split; [left; reflexivity|exact En]|]. destruct (H2 id M) as (m & H & Ei). exists m. split; [right; exact H|exact Ei].
Qed.

Lemma first_ids_some : forall w ns, (forall n, In n ns -> exists id, first_id ho w n = Ok id) -> exists ids, first_ids (A := Q) ho w ns = Ok ids.
Proof.
  induction ns as [|n ns IH]; intros H; cbn [first_ids]; [eauto|].
  destruct (H n (or_introl eq_refl)) as [id ->]. destruct IH as [ids ->]; [intros m M; apply H; right; exact M|]. cbn [rbind]. eauto.
Qed.


(** The satellites of a constellation, by node. *)
Lemma sats_nodes : forall h cs, sats_of b h cs = map (node_of cs) (launched_by h cs).
Proof.
  intros h cs. unfold sats_of, SetupProofs.launched_by. fold (mk (b_pos b) cs).
  assert (G : forall l from, (forall i x, nth_error l i = Some x -> nth_error cs (from + i) = Some (snd x)) ->
     map (fun x : bool * call => cl_node (snd x)) (filter (launch_of h) l) = map (node_of cs) (places (launch_of h) from l)).
  { induction l as [|x l IH]; intros from H; cbn [filter places]; [reflexivity|].
    assert (E : nth_error cs from = Some (snd x)) by (specialize (H 0 x eq_refl); rewrite Nat.add_0_r in H; exact H).
    rewrite map_app, <- IH.
    - destruct (launch_of h x); cbn [map app]; [|reflexivity]. unfold node_of at 1. rewrite E. reflexivity.
    - intros i y Hy. specialize (H (S i) y Hy). replace (S from + i) with (from + S i) by lia. exact H. }
  apply G. intros i x H. exact (mk_nth _ _ _ H).
Qed.

Lemma node_inj : forall cs h h' k k', In k (launched_by h cs) -> In k' (launched_by h' cs) -> node_of cs k = node_of cs k' -> k = k'.
Proof.
  intros cs h h' k k' H H' E. apply launched_in in H, H'. destruct H as (c & H & _). destruct H' as (c' & H' & _).
  unfold node_of in E. rewrite (mk_nth _ _ _ H), (mk_nth _ _ _ H') in E. exact (launch_once _ _ _ _ _ H H' E).
Qed.

Lemma sats_in : forall cs h n, In n (sats_of b h cs) <-> exists k c, nth_error (mkb cs) k = Some (true, c) /\ cl_node c = n /\ cl_helper c = h.
Proof.
  intros cs h n. rewrite sats_nodes, in_map_iff. split.
  - intros (k & E & H). apply launched_in in H. destruct H as (c & H & Eh). exists k, c. split; [exact H|]. split; [|exact Eh].
    unfold node_of in E. rewrite (mk_nth _ _ _ H) in E. exact E.
  - intros (k & c & H & E & Eh). exists k. split; [unfold node_of; rewrite (mk_nth _ _ _ H); exact E|]. apply launched_in. eauto.
Qed.

Lemma sats_length : forall cs h, length (sats_of b h cs) = length (launched_by h cs).
Proof. intros. rewrite sats_nodes, map_length. reflexivity. Qed.

Lemma joins_map : forall f (l : list (nat * nat)) (a c : nat) (D : nat -> Prop), (forall x y, D x -> D y -> f x = f y -> x = y) ->
  (forall x y, In (x, y) l -> D x /\ D y) -> D a -> D c ->
  joins (map (fun x => (f (fst x), f (snd x))) l) (f a) (f c) = joins l a c.
Proof.
  intros f l a c D Inj Hl Ha Hc. unfold joins. induction l as [|[x y] l IH]; cbn [map filter fst snd]; [reflexivity|].
  destruct (Hl x y (or_introl eq_refl)) as [Hx Hy].
  assert (E : forall u v, D u -> D v -> (f u =? f v) = (u =? v)).
  { intros u v Hu Hv. destruct (Nat.eqb_spec u v) as [->|N]; [apply Nat.eqb_refl|]. apply Nat.eqb_neq. intros X. apply N. apply Inj; assumption. }
  rewrite !E by assumption.
  assert (IH' := IH (fun u v H => Hl u v (or_intror H))).
  destruct ((x =? a) && (y =? c) || (x =? c) && (y =? a)); cbn [length]; rewrite IH'; reflexivity.
Qed.

Lemma added_at_launched : forall id P S ds c addrs i d, run_adds ho (con_new id P S) (launch_adds S ds) = Ok (c, addrs) ->
  nth_error ds i = Some d -> added_at (launch_adds S ds) (i / S) (i mod S) = Some d.
Proof.
  intros id P S ds c addrs i d R D.
  apply added_at_In; [exact (proj1 (proj1 (run_adds_admissible _ _ _ _ _ (new_wf id P S) R)))|].
  unfold launch_adds. apply in_map_iff. exists (i, d). split; [reflexivity|]. apply nth_error_In with (n := i). clear - D.
  assert (G : forall (l : list nat) s n, nth_error l n = Some d -> nth_error (combine (seq s (length l)) l) n = Some (s + n, d)).
  { induction l as [|x l IH]; intros s [|n] H; cbn in *; try discriminate.
    - injection H as ->. rewrite Nat.add_0_r. reflexivity.
    - rewrite (IH (Datatypes.S s) n H). do 2 f_equal. lia. }
  apply (G ds 0 i D).
Qed.

(** Pairs of nodes already linked, and those added. *)
Lemma install_pairs_app : forall l m k, install_pairs k (l ++ m) = install_pairs k l ++ install_pairs (k + length l) m.
Proof.
  induction l as [|x l IH]; intros m k; cbn [install_pairs app length]; [rewrite Nat.add_0_r; reflexivity|].
  rewrite IH, <- app_assoc. do 3 f_equal. lia.
Qed.

Lemma pairs_half : forall prs, length (install_pairs 0 prs) / 2 = length prs.
Proof. intros. rewrite install_pairs_length, Nat.mul_comm. apply Nat.div_mul. lia. Qed.

Lemma grid_net : forall cs cons ty links w h ids, inv cs cons ty links w -> length (launched_by h cs) = pl_P (plans h) * pl_S (plans h) ->
  length ids = pl_P (plans h) * pl_S (plans h) -> same_constellation 0 ids = Ok tt ->
  exists l, install_grid ids (h_con (sw_helpers w h)) = Ok l /\
    (forall x, In x l -> In (fst x) (launched_by h cs) /\ In (snd x) (launched_by h cs)) /\
    is_grid (pl_P (plans h)) (pl_S (plans h)) (sats_of b h cs) (map (fun x => (node_of cs (fst x), node_of cs (snd x))) l).
Proof.
  intros cs cons ty links w h ids I L Li Sm. destruct (help_run _ _ _ _ _ h I) as [addrs R]. pose proof (ids_ok h) as IdH.
  destruct (grid_is_torus ho (pl_id (plans h)) (pl_P (plans h)) (pl_S (plans h)) _ _ _ (repeat (pl_id (plans h)) (pl_P (plans h) * pl_S (plans h))) R) as (l & El & T & Mem & _).
  - rewrite launch_adds_length. exact L.
  - rewrite launch_adds_devs. apply places_NoDup.
  - unfold is_u16. lia.
  - lia.
  - clear. induction (pl_P (plans h) * pl_S (plans h)); cbn [repeat]; constructor; auto.
  - apply repeat_length.
  - pose proof (grid_same _ _ _ El) as Sm'. exists l. rewrite (same_split _ _ Sm') in El. rewrite repeat_length, <- Li in El.
    split; [rewrite (same_split _ _ Sm); exact El|]. rewrite launch_adds_devs in Mem.
    assert (Mem' : forall x, In x l -> In (fst x) (launched_by h cs) /\ In (snd x) (launched_by h cs)) by (intros [x y] X; apply (Mem x y X)).
    split; [exact Mem'|]. rewrite sats_nodes. split.
    + intros i j x y Hi Hj. rewrite nth_error_map in Hi, Hj.
      destruct (nth_error (launched_by h cs) i) as [di|] eqn:Di; [|discriminate Hi]. injection Hi as <-.
      destruct (nth_error (launched_by h cs) j) as [dj|] eqn:Dj; [|discriminate Hj]. injection Hj as <-.
      rewrite (joins_map (node_of cs) l di dj (fun k => In k (launched_by h cs))).
      * apply T; eapply added_at_launched; eassumption.
      * intros u v Hu Hv. exact (node_inj cs h h u v Hu Hv).
      * intros u v H. apply (Mem u v H).
      * exact (nth_error_In _ _ Di).
      * exact (nth_error_In _ _ Dj).
    + intros x y X. apply in_map_iff in X. destruct X as ([u v] & E & H). injection E as <- <-. cbn [fst snd].
      destruct (Mem u v H) as (N & Hu & Hv). split; [|split; apply in_map; assumption].
      intros E. apply N. exact (node_inj cs h h u v Hu Hv E).
Qed.

Lemma isl_ok : forall cs cons ty prs w ns h, inv cs cons ty (install_pairs 0 prs) w -> linkable plans b cs ns h ->
  exists w' net, install_isl ho w ns h = Ok w' /\ is_grid (pl_P (plans h)) (pl_S (plans h)) (sats_of b h cs) net /\
    inv cs cons ty (install_pairs 0 (prs ++ net)) w'.
Proof.
  intros cs cons ty prs w ns h I (L & Ln & id & Hn). rewrite sats_length in L. unfold install_isl.
  destruct (first_ids_some w ns) as [ids Ei].
  { intros n N. destruct (Hn n N) as (h' & Hs & _). apply sats_in in Hs. destruct Hs as (k & c & Hk & Hc & _).
    eexists. apply (first_id_ok _ _ _ _ _ _ I). eauto. }
  rewrite Ei. cbn [rbind]. destruct (first_ids_ok _ _ _ _ _ _ _ I Ei) as (Li & _ & H2).
  assert (Fi : Forall (eq id) ids).
  { apply Forall_forall. intros a Ha. destruct (H2 a Ha) as (n & N & E). apply (first_id_ok _ _ _ _ _ _ I) in E. destruct E as (k & c & Hk & Hc & ->).
    destruct (Hn n N) as (h' & Hs & <-). apply sats_in in Hs. destruct Hs as (k' & c' & Hk' & Hc' & <-).
    assert (k = k') by (eapply launch_once; [exact Hk|exact Hk'|congruence]). subst. congruence. }
  assert (Sm : same_constellation 0 ids = Ok tt).
  { apply same_first; [|exists id; exact Fi]. apply Forall_forall. intros a Ha. destruct (H2 a Ha) as (n & N & E). apply (first_id_ok _ _ _ _ _ _ I) in E.
    destruct E as (k & c & _ & _ & ->). apply ids_ok. }
  destruct (grid_net _ _ _ _ _ h ids I L ltac:(lia) Sm) as (l & El & Mem & G). rewrite El. cbn [rbind].
  destruct (pairs_ok h l _ _ _ _ _ I) as (w' & Ew & I' & _); [|exact Mem|].
  { rewrite install_pairs_length. exists (length prs). lia. }
  exists w', (map (fun x => (node_of cs (fst x), node_of cs (snd x))) l). split; [exact Ew|]. split; [exact G|].
  rewrite pairs_half in I'. rewrite install_pairs_app. exact I'.
Qed.

Lemma isl_only : forall cs cons ty prs w ns h w', inv cs cons ty (install_pairs 0 prs) w -> good cs -> install_isl ho w ns h = Ok w' -> linkable plans b cs ns h.
Proof.
  intros cs cons ty prs w ns h w' I Gd E. unfold install_isl in E.
  destruct (first_ids ho w ns) as [ids| | |] eqn:Ei; try discriminate E. cbn [rbind] in E.
  destruct (install_grid ids (h_con (sw_helpers w h))) as [l| | |] eqn:El; try discriminate E. clear E.
  destruct (first_ids_ok _ _ _ _ _ _ _ I Ei) as (Li & H1 & H2). pose proof (grid_same _ _ _ El) as Sm.
  assert (Rg : Forall (fun a => (0 < a < 65536)%Z) ids).
  { apply Forall_forall. intros a Ha. destruct (H2 a Ha) as (n & N & E). apply (first_id_ok _ _ _ _ _ _ I) in E.
    destruct E as (k & c & _ & _ & ->). apply ids_ok. }
  destruct (proj1 (same_first _ Rg) Sm) as [id Fi]. destruct (help_run _ _ _ _ _ h I) as [addrs R].
  assert (Le : length (launched_by h cs) <= pl_P (plans h) * pl_S (plans h)) by apply Gd.
  assert (El' := El). rewrite (same_split _ _ Sm) in El'.
  assert (Idn : length (launched_by h cs) = pl_P (plans h) * pl_S (plans h) /\ length ids = pl_P (plans h) * pl_S (plans h)).
  { pose proof (ids_ok h) as IdH.
    set (ids' := repeat (pl_id (plans h)) (length ids)).
    assert (Fr : Forall (eq (pl_id (plans h))) ids') by (unfold ids'; clear; induction (length ids); cbn [repeat]; constructor; auto).
    assert (Ex : install_grid ids' (h_con (sw_helpers w h)) = Ok l).
    { rewrite same_split; [unfold ids'; rewrite repeat_length; exact El'|]. apply (same_constellation_ok (pl_id (plans h))); [unfold is_u16; lia|lia|exact Fr]. }
    destruct (Nat.eq_dec (length (launched_by h cs)) (pl_P (plans h) * pl_S (plans h))) as [Q|Q].
    - split; [exact Q|]. unfold install_grid in El. rewrite Sm in El. cbn [rbind] in El.
      destruct (full_complete _ _ _ _ _ _ _ R ltac:(rewrite launch_adds_length; exact Q)) as (_ & _ & _ & En).
      destruct (get_size (h_con (sw_helpers w h))) as [z| | |] eqn:Gs; try discriminate El. cbn [rbind] in El.
      unfold get_size in Gs. destruct (con_size (h_con (sw_helpers w h)) <=? con_planes (h_con (sw_helpers w h)) * con_plane_size (h_con (sw_helpers w h))); try discriminate Gs.
      cbn in Gs. injection Gs as <-. rewrite En in El. destruct (Nat.eqb_spec (length ids) (pl_P (plans h) * pl_S (plans h))); [assumption|discriminate El].
    - exfalso. rewrite (incomplete_partial _ _ _ _ _ _ _ ids' R) in Ex; [|rewrite launch_adds_length; lia|unfold is_u16; lia|lia|exact Fr].
      destruct (length ids' =? length (launch_adds (pl_S (plans h)) (launched_by h cs))); discriminate Ex. }
  destruct Idn as [Q1 Q2]. split; [rewrite sats_length; exact Q1|]. split; [lia|]. exists id. intros n N.
  destruct (H1 n N) as (a & Ha & Ea). rewrite Forall_forall in Fi. specialize (Fi _ Ha). subst a.
  apply (first_id_ok _ _ _ _ _ _ I) in Ea. destruct Ea as (k & c & Hk & Hc & ->). exists (cl_helper c). split; [|reflexivity]. apply sats_in. eauto.
Qed.

(** * Single operations *)

Lemma good_fits : forall cs, good cs <-> fits plans b cs.
Proof.
  intros cs. unfold SetupProofs.good. split.
  - intros (H1 & H2 & H3 & H4). constructor.
    + intros c H. apply (H1 _ H eq_refl).
    + exact H2.
    + intros c H. apply (H3 (cl_node c) _ H). unfold ground_on, on, is_ground. cbn. apply Nat.eqb_refl.
    + intros h. rewrite sats_length. apply H4.
  - intros [H1 H2 H3 H4]. repeat split.
    + intros [m c] H E. cbn in E. subst m. apply H1. exact H.
    + exact H2.
    + intros n [m c] H G. unfold ground_on, on, is_ground in G. cbn [fst snd] in *. apply andb_prop in G. destruct G as [G1 G2].
      apply Nat.eqb_eq in G2. subst n. destruct m; [discriminate|]. apply H3. exact H.
    + intros h. rewrite <- sats_length. apply H4.
Qed.

Lemma each_ok : forall ns cs cons ty links w c h, inv cs cons ty links w -> (forall i, c = Some i -> i < length cons) ->
  good (cs ++ map (fun n => mkCall n c h ty) ns) -> exists w', install_each rational debug ho w ns c h = Ok w' /\ inv (cs ++ map (fun n => mkCall n c h ty) ns) cons ty links w'.
Proof.
  induction ns as [|n ns IH]; intros cs cons ty links w c h I K G; cbn [map install_each] in *.
  - rewrite app_nil_r in *. eauto.
  - change (mkCall n c h ty :: map (fun m => mkCall m c h ty) ns) with ([mkCall n c h ty] ++ map (fun m => mkCall m c h ty) ns) in *.
    rewrite app_assoc in *. pose proof (good_prefix plans plans_ok _ _ _ G) as G1. apply (good_snoc plans plans_ok) in G1. destruct G1 as [_ M].
    destruct (one_ok debug ho plans plans_ok b first _ _ _ _ _ n c h I K M) as (w1 & E1 & I1). rewrite E1. cbn [rbind]. apply IH; assumption.
Qed.

Lemma each_only : forall ns cs cons ty links w c h w', inv cs cons ty links w -> (forall i, c = Some i -> i < length cons) -> good cs ->
  install_each rational debug ho w ns c h = Ok w' -> good (cs ++ map (fun n => mkCall n c h ty) ns).
Proof.
  induction ns as [|n ns IH]; intros cs cons ty links w c h w' I K G E; cbn [map install_each] in *.
  - rewrite app_nil_r. exact G.
  - destruct (install_one rational debug ho w n c h) as [w1| | |] eqn:E1; try discriminate E. cbn [rbind] in E.
    pose proof (one_only debug ho plans plans_ok b first _ _ _ _ _ _ _ _ _ I G E1) as M.
    destruct (one_ok debug ho plans plans_ok b first _ _ _ _ _ n c h I K M) as (w2 & E2 & I2). rewrite E1 in E2. injection E2 as <-.
    change (mkCall n c h ty :: map (fun m => mkCall m c h ty) ns) with ([mkCall n c h ty] ++ map (fun m => mkCall m c h ty) ns).
    rewrite app_assoc. eapply IH; [exact I2|exact K|apply (good_snoc plans plans_ok); auto|exact E].
Qed.

Lemma chan_inv : forall cs cons ty links w, inv cs cons ty links w ->
  inv cs (cons ++ [None]) ty links (mkWorld (sw_helpers w) (sw_chans w ++ [sc_new]) (sw_nodes w) (sw_devs w) (sw_links w) (sw_type w) (sw_mac w)).
Proof.
  intros cs cons ty links w I. constructor; cbn [sw_helpers sw_chans sw_nodes sw_devs sw_links sw_type sw_mac]; try apply I.
  - rewrite !app_length, (i_chans _ _ _ _ _ _ _ _ _ I). reflexivity.
  - intros c. destruct (Nat.lt_trichotomy c (length cons)) as [L|[L|L]].
    + rewrite !nth_error_app1 by (rewrite ?(i_chans _ _ _ _ _ _ _ _ _ I); exact L). apply I.
    + rewrite !nth_error_app2 by (rewrite ?(i_chans _ _ _ _ _ _ _ _ _ I); lia). rewrite (i_chans _ _ _ _ _ _ _ _ _ I), L, Nat.sub_diag. cbn [nth_error option_map].
      unfold sc_new. do 2 f_equal. destruct (places (ground_at (length cons)) 0 (mkb cs)) as [|k r] eqn:E; [reflexivity|exfalso].
      assert (X : In k (places (ground_at (length cons)) 0 (mkb cs))) by (rewrite E; left; reflexivity).
      apply places_in in X. destruct X as (i & x & _ & H & G). unfold ground_at in G. apply andb_prop in G. destruct G as [_ G].
      destruct (cl_chan (snd x)) as [z|] eqn:Ez; [|discriminate G]. apply Nat.eqb_eq in G. subst z.
      pose proof (i_known _ _ _ _ _ _ _ _ _ I (snd x) (length cons) ltac:(eapply nth_error_In; apply (mk_nth _ _ _ H)) Ez). lia.
    + rewrite !(proj2 (nth_error_None _ _)); [reflexivity| |]; rewrite app_length, ?(i_chans _ _ _ _ _ _ _ _ _ I); cbn; lia.
  - intros c i H E. rewrite app_length. pose proof (i_known _ _ _ _ _ _ _ _ _ I _ _ H E). lia.
Qed.

Lemma type_inv : forall cs cons ty links w t, inv cs cons ty links w ->
  inv cs cons t links (mkWorld (sw_helpers w) (sw_chans w) (sw_nodes w) (sw_devs w) (sw_links w) t (sw_mac w)).
Proof. intros cs cons ty links w t I. constructor; cbn [sw_helpers sw_chans sw_nodes sw_devs sw_links sw_type sw_mac]; try apply I. reflexivity. Qed.

Lemma tell_length : forall (cons : list (option nat)) i x, i < length cons -> length (firstn i cons ++ [x] ++ skipn (S i) cons) = length cons.
Proof. intros. rewrite !app_length, firstn_length, skipn_length. cbn. lia. Qed.

Lemma tell_set : forall (cons : list (option nat)) i x, i < length cons -> firstn i cons ++ [x] ++ skipn (S i) cons = set_nth i x cons.
Proof.
  induction cons as [|y cons IH]; intros [|i] x L; cbn in L; try lia; [reflexivity|].
  cbn [firstn app skipn set_nth]. f_equal. specialize (IH i x ltac:(lia)). exact IH.
Qed.

Lemma tell_inv : forall cs cons ty links w i h ch, inv cs cons ty links w -> nth_error (sw_chans w) i = Some ch ->
  inv cs (firstn i cons ++ [Some h] ++ skipn (S i) cons) ty links
    (mkWorld (sw_helpers w) (set_nth i (mkSC (Some h) (sc_ground ch)) (sw_chans w)) (sw_nodes w) (sw_devs w) (sw_links w) (sw_type w) (sw_mac w)).
Proof.
  intros cs cons ty links w i h ch I E.
  assert (L : i < length cons) by (rewrite <- (i_chans _ _ _ _ _ _ _ _ _ I); apply nth_error_Some; congruence).
  rewrite tell_set by exact L.
  constructor; cbn [sw_helpers sw_chans sw_nodes sw_devs sw_links sw_type sw_mac]; rewrite ?set_nth_length; try apply I.
  intros c. destruct (Nat.eq_dec i c) as [<-|N].
  - rewrite !set_nth_same by (rewrite ?(i_chans _ _ _ _ _ _ _ _ _ I); exact L). cbn [option_map].
    rewrite (i_chan _ _ _ _ _ _ _ _ _ I) in E. destruct (nth_error cons i); [|discriminate E]. injection E as <-. reflexivity.
  - rewrite !set_nth_other by exact N. apply I.
Qed.

(** * The whole script *)

Definition more_chans (chans : nat) (o : sop) : nat := match o with SChannel | SNew _ _ => S chans | _ => chans end.

Lemma calls_cons : forall o r chans ty, calls chans ty (o :: r) = calls chans ty [o] ++ calls (more_chans chans o) (last_type ty [o]) r.
Proof. intros [|t|[n|] c h|ns c h|ns h|ns h] r chans ty; cbn [calls more_chans last_type app]; rewrite ?app_nil_r; reflexivity. Qed.

Lemma asked_cons : forall o r cs chans ty, asked cs chans ty (o :: r) = asked cs chans ty [o] ++ asked (cs ++ calls chans ty [o]) (more_chans chans o) (last_type ty [o]) r.
Proof. intros [|t|[n|] c h|ns c h|ns h|ns h] r cs chans ty; cbn [asked calls more_chans last_type app]; rewrite ?app_nil_r; reflexivity. Qed.

Lemma told_cons : forall o r cons, told (o :: r) cons = told r (told [o] cons).
Proof. intros [|t|n c h|ns [c|] h|ns h|ns h] r cons; reflexivity. Qed.

Lemma last_cons : forall o r ty, last_type ty (o :: r) = last_type (last_type ty [o]) r.
Proof. intros [|t|n c h|ns c h|ns h|ns h] r ty; reflexivity. Qed.

Lemma told_length : forall o cons, holds (length cons) [o] -> length (told [o] cons) = more_chans (length cons) o.
Proof.
  intros [|t|n c h|ns [c|] h|ns h|ns h] cons H; cbn [told more_chans holds] in *; try reflexivity;
    try (rewrite app_length; cbn [length]; lia).
  apply (tell_length cons c (Some h)). tauto.
Qed.

Lemma holds_cons : forall o r chans, holds chans (o :: r) <-> holds chans [o] /\ holds (more_chans chans o) r.
Proof. intros [|t|n [c|] h|ns [c|] h|ns h|ns h] r chans; cbn [holds more_chans]; tauto. Qed.

Definition net_of (a : list call * list nat * nat) (net : list (nat * nat)) : Prop :=
  is_grid (pl_P (plans (snd a))) (pl_S (plans (snd a))) (sats_of b (snd a) (fst (fst a))) net.
Definition can_link (a : list call * list nat * nat) : Prop := linkable plans b (fst (fst a)) (snd (fst a)) (snd a).

Lemma many_ok : forall cs cons ty links w ns i h, inv cs cons ty links w -> i < length cons -> good (cs ++ map (fun n => mkCall n (Some i) h ty) ns) ->
  exists w', install_many rational debug ho w ns (Some i) h = Ok w' /\
    inv (cs ++ map (fun n => mkCall n (Some i) h ty) ns) (firstn i cons ++ [Some h] ++ skipn (S i) cons) ty links w'.
Proof.
  intros cs cons ty links w ns i h I L G. unfold install_many.
  destruct (nth_error (sw_chans w) i) as [ch|] eqn:E; [|apply nth_error_None in E; rewrite (i_chans _ _ _ _ _ _ _ _ _ I) in E; lia].
  apply each_ok; [apply tell_inv; assumption| |exact G]. intros j J. injection J as <-. rewrite tell_length; exact L.
Qed.

Lemma many_only : forall cs cons ty links w ns i h w', inv cs cons ty links w -> i < length cons -> good cs ->
  install_many rational debug ho w ns (Some i) h = Ok w' -> good (cs ++ map (fun n => mkCall n (Some i) h ty) ns).
Proof.
  intros cs cons ty links w ns i h w' I L G. unfold install_many.
  destruct (nth_error (sw_chans w) i) as [ch|] eqn:E; [|discriminate].
  apply each_only with (cons := firstn i cons ++ [Some h] ++ skipn (S i) cons) (links := links); [apply tell_inv; assumption| |exact G]. intros j J. injection J as <-. rewrite tell_length; exact L.
Qed.

Lemma tell_new : forall (cons : list (option nat)) x, firstn (length cons) (cons ++ [None]) ++ [x] ++ skipn (S (length cons)) (cons ++ [None]) = cons ++ [x].
Proof.
  intros. rewrite firstn_app, firstn_all, Nat.sub_diag. cbn [firstn]. rewrite app_nil_r. rewrite skipn_all2 by (rewrite app_length; cbn; lia). reflexivity.
Qed.

Lemma step_ok : forall o cs cons ty prs w, inv cs cons ty (install_pairs 0 prs) w -> holds (length cons) [o] -> null_op o = false ->
  good (cs ++ calls (length cons) ty [o]) -> Forall can_link (asked cs (length cons) ty [o]) ->
  exists w' nets, setup_step rational debug ho w o = Ok w' /\ Forall2 net_of (asked cs (length cons) ty [o]) nets /\
    inv (cs ++ calls (length cons) ty [o]) (told [o] cons) (last_type ty [o]) (install_pairs 0 (prs ++ concat nets)) w'.
Proof.
  intros o cs cons ty prs w I H N G F.
  destruct o as [|t|[n|] c h|ns [c|] h|ns h|ns h]; try discriminate N; cbn [calls asked told last_type setup_step holds] in *; rewrite ?app_nil_r in *.
  - eexists; exists []. split; [reflexivity|]. split; [constructor|]. cbn [concat]. rewrite app_nil_r. apply chan_inv; exact I.
  - eexists; exists []. split; [reflexivity|]. split; [constructor|]. cbn [concat]. rewrite app_nil_r. eapply type_inv; exact I.
  - assert (K : forall i, c = Some i -> i < length cons) by (intros i ->; tauto).
    apply (good_snoc plans plans_ok) in G. destruct G as [_ M].
    destruct (one_ok debug ho plans plans_ok b first _ _ _ _ _ n c h I K M) as (w1 & E1 & I1).
    exists w1, []. split; [exact E1|]. split; [constructor|]. cbn [concat]. rewrite app_nil_r. exact I1.
  - destruct (many_ok _ _ _ _ _ ns c h I ltac:(tauto) G) as (w1 & E1 & I1).
    exists w1, []. split; [exact E1|]. split; [constructor|]. cbn [concat]. rewrite app_nil_r. exact I1.
  - rewrite (i_chans _ _ _ _ _ _ _ _ _ I).
    destruct (many_ok _ _ _ _ _ ns (length cons) h (chan_inv _ _ _ _ _ I) ltac:(rewrite app_length; cbn; lia) G) as (w1 & E1 & I1).
    exists w1, []. split; [exact E1|]. split; [constructor|]. cbn [concat]. rewrite app_nil_r. rewrite tell_new in I1. exact I1.
  - inversion F as [|? ? Fl _]; subst. destruct (isl_ok _ _ _ _ _ _ _ I Fl) as (w1 & net & E1 & Gr & I1).
    exists w1, [net]. split; [exact E1|]. split; [constructor; [exact Gr|constructor]|]. cbn [concat]. rewrite app_nil_r. exact I1.
Qed.

Lemma step_only : forall o cs cons ty prs w w', inv cs cons ty (install_pairs 0 prs) w -> good cs -> holds (length cons) [o] ->
  setup_step rational debug ho w o = Ok w' -> null_op o = false /\ good (cs ++ calls (length cons) ty [o]) /\ Forall can_link (asked cs (length cons) ty [o]).
Proof.
  intros o cs cons ty prs w w' I G H E.
  destruct o as [|t|[n|] c h|ns [c|] h|ns h|ns h]; try discriminate E; cbn [calls asked setup_step holds null_op] in *; rewrite ?app_nil_r in *;
    (split; [reflexivity|]); try (split; [exact G|constructor; fail]).
  - split; [|constructor]. apply (good_snoc plans plans_ok). split; [exact G|]. eapply one_only; eassumption.
  - split; [|constructor]. eapply many_only; try eassumption. tauto.
  - split; [|constructor]. rewrite (i_chans _ _ _ _ _ _ _ _ _ I) in E. eapply many_only; [apply chan_inv; exact I| |exact G|exact E]. rewrite app_length. cbn. lia.
  - split; [exact G|]. constructor; [|constructor]. unfold can_link. cbn [fst snd]. eapply isl_only; eassumption.
Qed.

Lemma Forall2_app' : forall A B (R : A -> B -> Prop) a c x y, Forall2 R a x -> Forall2 R c y -> Forall2 R (a ++ c) (x ++ y).
Proof. intros. apply Forall2_app; assumption. Qed.

Lemma run_ok : forall l cs cons ty prs w, inv cs cons ty (install_pairs 0 prs) w -> holds (length cons) l -> Forall (fun o => null_op o = false) l ->
  good (cs ++ calls (length cons) ty l) -> Forall can_link (asked cs (length cons) ty l) ->
  exists w' nets, setup rational debug ho w l = Ok w' /\ Forall2 net_of (asked cs (length cons) ty l) nets /\
    inv (cs ++ calls (length cons) ty l) (told l cons) (last_type ty l) (install_pairs 0 (prs ++ concat nets)) w'.
Proof.
  induction l as [|o l IH]; intros cs cons ty prs w I H N G F.
  - cbn [calls asked told last_type setup] in *. exists w, []. cbn [concat]. rewrite !app_nil_r. split; [reflexivity|]. split; [constructor|exact I].
  - apply holds_cons in H. destruct H as [H1 H2]. inversion N; subst. rewrite calls_cons, app_assoc in G. rewrite asked_cons in F. apply Forall_app in F. destruct F as [F1 F2].
    destruct (step_ok o _ _ _ _ _ I H1 H3 (good_prefix plans plans_ok _ _ _ G) F1) as (w1 & nets1 & E1 & A1 & I1). cbn [setup]. rewrite E1. cbn [rbind].
    rewrite <- (told_length o cons H1) in H2, G, F2.
    destruct (IH _ _ _ _ _ I1 H2 H4 G F2) as (w2 & nets2 & E2 & A2 & I2).
    exists w2, (nets1 ++ nets2). split; [exact E2|]. rewrite (told_length o cons H1) in A2, I2. split.
    + rewrite asked_cons. apply Forall2_app; assumption.
    + rewrite (calls_cons o l), (told_cons o l), (last_cons o l ty), concat_app, !app_assoc. rewrite <- (app_assoc prs). rewrite <- !app_assoc in I2. rewrite <- !app_assoc. exact I2.
Qed.

Lemma run_only : forall l cs cons ty prs w w', inv cs cons ty (install_pairs 0 prs) w -> good cs -> holds (length cons) l ->
  setup rational debug ho w l = Ok w' -> Forall (fun o => null_op o = false) l /\ good (cs ++ calls (length cons) ty l) /\ Forall can_link (asked cs (length cons) ty l).
Proof.
  induction l as [|o l IH]; intros cs cons ty prs w w' I G H E.
  - cbn [calls asked]. rewrite app_nil_r. repeat split; try constructor; apply G.
  - apply holds_cons in H. destruct H as [H1 H2]. cbn [setup] in E.
    destruct (setup_step rational debug ho w o) as [w1| | |] eqn:E1; try discriminate E. cbn [rbind] in E.
    destruct (step_only o _ _ _ _ _ _ I G H1 E1) as (N & G1 & F1).
    destruct (step_ok o _ _ _ _ _ I H1 N G1 F1) as (w2 & nets & E2 & _ & I1). rewrite E1 in E2. injection E2 as <-.
    rewrite <- (told_length o cons H1) in H2. destruct (IH _ _ _ _ _ _ I1 G1 H2 E) as (N2 & G2 & F2).
    rewrite (told_length o cons H1) in G2, F2.
    split; [constructor; assumption|]. rewrite calls_cons, app_assoc, asked_cons. split; [exact G2|]. apply Forall_app. auto.
Qed.
End Run.
