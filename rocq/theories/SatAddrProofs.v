From Coq Require Import ZArith List Lia Bool.
From Verif Require Import Base SatAddrModel SatAddrSpec.
Import ListNotations.
Open Scope Z_scope.
#[local] Ltac Zify.zify_post_hook ::= Z.to_euclidean_division_equations.

Lemma htons_inv : forall h x, is_u16 x -> ntohs h (htons h x) = x.
Proof. unfold is_u16, ntohs, htons; intros [] x H; lia. Qed.

Lemma htons_range : forall h x, is_u16 x -> is_u16 (htons h x).
Proof. unfold is_u16, htons; intros [] x H; lia. Qed.

Lemma u16_id : forall x, is_u16 x -> u16 x = x.
Proof. unfold is_u16, u16; intros; apply Z.mod_small; lia. Qed.

Lemma u16_range : forall x, is_u16 (u16 x).
Proof. unfold is_u16, u16; intros; apply Z.mod_pos_bound; lia. Qed.

Lemma getters_make : forall h c p i, is_u16 c -> is_u16 p -> is_u16 i ->
  get_constellation h (sat_make h c p i) = c /\
  get_plane h (sat_make h c p i) = p /\
  get_index h (sat_make h c p i) = i.
Proof.
  intros; unfold get_constellation, get_plane, get_index, sat_make; cbn -[htons ntohs].
  rewrite !u16_id by assumption. rewrite !htons_inv by assumption. auto.
Qed.

Lemma mem16_htons : forall h x, is_u16 x -> mem16 h (htons h x) = [x / 256; x mod 256].
Proof.
  unfold is_u16, mem16, htons; intros [] x H; f_equal; try lia; f_equal; lia.
Qed.

Lemma convert_to_bytes : forall h ty c p i, is_u16 c -> is_u16 p -> is_u16 i ->
  convert_to h ty (sat_make h c p i) = mkGen ty (network_bytes c p i).
Proof.
  intros; unfold convert_to, sat_make; cbn -[mem16 htons].
  rewrite !u16_id by assumption. rewrite !mem16_htons by assumption. reflexivity.
Qed.

Lemma copy_to_bytes : forall h c p i, is_u16 c -> is_u16 p -> is_u16 i ->
  copy_to h (sat_make h c p i) = network_bytes c p i.
Proof.
  intros. pose proof (convert_to_bytes h 0 c p i H H0 H1) as E.
  unfold convert_to in E. injection E as E. exact E.
Qed.

Lemma copy_from_to : forall h a,
  is_u16 (raw_constellation a) -> is_u16 (raw_plane a) -> is_u16 (raw_index a) ->
  copy_from h (copy_to h a) = Ok a.
Proof.
  assert (L : forall x, x mod 256 + 256 * (x / 256) = x) by (intros; lia).
  assert (B : forall x, 256 * (x / 256) + x mod 256 = x) by (intros; lia).
  intros h [c p i] _ _ _. unfold copy_to, copy_from, mem16, of_mem16.
  destruct h; cbn [app raw_constellation raw_plane raw_index]; rewrite ?L, ?B; reflexivity.
Qed.

Lemma be_value : forall b0 b1, byte b0 -> byte b1 -> is_u16 (b0 * 256 + b1).
Proof. unfold byte, is_u16; intros; lia. Qed.

Lemma check_compatible_spec : forall a ty,
  check_compatible a ty 6 && (Z.of_nat (length (ga_data a)) =? 6) = true <->
  readable_as_satellite ty (ga_type a) (ga_data a).
Proof.
  intros [t d] ty; unfold check_compatible, readable_as_satellite; simpl.
  rewrite !andb_true_iff, !orb_true_iff, !andb_true_iff, !Z.eqb_eq, !Z.leb_le. lia.
Qed.

Lemma six : forall (d : list Z), length d = 6%nat ->
  exists b0 b1 b2 b3 b4 b5, d = [b0; b1; b2; b3; b4; b5].
Proof.
  intros d H. destruct d as [|b0 [|b1 [|b2 [|b3 [|b4 [|b5 [|]]]]]]]; try discriminate.
  do 6 eexists; reflexivity.
Qed.

Lemma convert_from_ok : forall h ty t b0 b1 b2 b3 b4 b5,
  t = ty \/ t = 0 -> Forall byte [b0; b1; b2; b3; b4; b5] ->
  convert_from h ty (mkGen t [b0; b1; b2; b3; b4; b5]) =
  Ok (sat_make h (b0 * 256 + b1) (b2 * 256 + b3) (b4 * 256 + b5)).
Proof.
  intros. unfold convert_from.
  assert (C : check_compatible (mkGen t [b0; b1; b2; b3; b4; b5]) ty 6 = true).
  { unfold check_compatible; simpl. destruct H; subst.
    - rewrite Z.eqb_refl; reflexivity.
    - rewrite orb_true_r; reflexivity. }
  rewrite C. simpl.
  repeat match goal with H : Forall _ (_ :: _) |- _ => inversion H; clear H; subst end.
  rewrite !u16_id by (apply be_value; assumption). reflexivity.
Qed.

Lemma convert_from_iff : forall h ty a,
  Forall byte (ga_data a) ->
  (readable_as_satellite ty (ga_type a) (ga_data a) ->
     exists s, convert_from h ty a = Ok s /\ ga_data (convert_to h ty s) = ga_data a) /\
  (~ readable_as_satellite ty (ga_type a) (ga_data a) -> convert_from h ty a = Assert).
Proof.
  intros h ty [t d] HB; cbn [ga_data ga_type]. split.
  - intros [L T]. destruct (six d L) as (b0&b1&b2&b3&b4&b5&->).
    exists (sat_make h (b0 * 256 + b1) (b2 * 256 + b3) (b4 * 256 + b5)). split.
    + apply convert_from_ok; simpl in *; auto.
    + cbn [ga_data] in HB.
      repeat match goal with H : Forall _ (_ :: _) |- _ => inversion H; clear H; subst end.
      rewrite convert_to_bytes by (apply be_value; assumption).
      simpl. unfold network_bytes, byte in *.
      repeat (f_equal; try lia).
  - intros N. unfold convert_from.
    destruct (check_compatible (mkGen t d) ty 6) eqn:C; simpl; [|reflexivity].
    destruct (Z.of_nat (length d) =? 6) eqn:L; simpl; [|reflexivity].
    exfalso. apply N. apply (check_compatible_spec (mkGen t d) ty).
    rewrite C. exact L.
Qed.

Lemma round_trip : forall h ty c p i, is_u16 c -> is_u16 p -> is_u16 i ->
  convert_from h ty (convert_to h ty (sat_make h c p i)) = Ok (sat_make h c p i).
Proof.
  intros. rewrite convert_to_bytes by assumption. unfold network_bytes.
  assert (B : forall x, is_u16 x -> byte (x / 256) /\ byte (x mod 256)).
  { unfold is_u16, byte; intros; lia. }
  rewrite convert_from_ok; [| left; reflexivity |].
  - f_equal. unfold is_u16 in *. f_equal; lia.
  - repeat constructor; apply B; assumption.
Qed.

Lemma network_bytes_inj : forall c p i c' p' i',
  network_bytes c p i = network_bytes c' p' i' -> c = c' /\ p = p' /\ i = i'.
Proof. unfold network_bytes; intros; injection H; intros; lia. Qed.

Lemma sat_eqb_make : forall h c p i c' p' i',
  is_u16 c -> is_u16 p -> is_u16 i -> is_u16 c' -> is_u16 p' -> is_u16 i' ->
  sat_eqb h (sat_make h c p i) (sat_make h c' p' i') = true <-> c = c' /\ p = p' /\ i = i'.
Proof.
  intros. unfold sat_eqb.
  destruct (getters_make h c p i) as (-> & -> & ->); auto.
  destruct (getters_make h c' p' i') as (-> & -> & ->); auto.
  rewrite !andb_true_iff, !Z.eqb_eq. tauto.
Qed.

(** ** Tags *)

Lemma tb_take_app : forall xs ys, tb_take (length xs) (xs ++ ys) = Ok (xs, ys).
Proof. induction xs; simpl; intros; [reflexivity|]. rewrite IHxs. reflexivity. Qed.

Lemma tb_take_app_n : forall n xs ys, length xs = n -> tb_take n (xs ++ ys) = Ok (xs, ys).
Proof. intros; subst; apply tb_take_app. Qed.

Lemma copy_to_length : forall h a, length (copy_to h a) = 6%nat.
Proof. intros [] a; reflexivity. Qed.

Lemma ground_tag_round : forall h t,
  is_u16 (raw_constellation (gt_dst t)) -> is_u16 (raw_plane (gt_dst t)) ->
  is_u16 (raw_index (gt_dst t)) -> is_u16 (gt_proto t) -> length (gt_power t) = 8%nat ->
  exists bs, ground_tag_serialize h t = Ok bs /\
    Z.of_nat (length bs) = ground_tag_size /\
    ground_tag_deserialize h bs = Ok t.
Proof.
  intros h t Hc Hp Hi Hpr Hpw.
  exists ((copy_to h (gt_dst t) ++ u16_bytes (gt_proto t) ++ gt_power t) ++ repeat 0 10).
  assert (L6 := copy_to_length h (gt_dst t)).
  split; [| split].
  - unfold ground_tag_serialize, tb_write, ground_tag_size.
    rewrite L6. simpl. rewrite Hpw. simpl. rewrite <- !app_assoc. reflexivity.
  - rewrite !app_length, L6, Hpw. reflexivity.
  - unfold ground_tag_deserialize. rewrite <- !app_assoc.
    rewrite tb_take_app_n by exact L6. cbn [rbind].
    rewrite copy_from_to by assumption. cbn [rbind].
    rewrite tb_take_app_n by reflexivity. cbn [rbind].
    rewrite tb_take_app_n by exact Hpw. cbn [rbind].
    destruct t as [d pr pw]; unfold u16_bytes;
    cbn [nth gt_dst gt_proto gt_power st_dst st_proto st_power] in *. do 2 f_equal. unfold is_u16 in *. lia.
Qed.

Lemma sat_tag_round : forall t,
  length (st_dst t) = 6%nat -> is_u16 (st_proto t) -> length (st_power t) = 8%nat ->
  exists bs, sat_tag_serialize t = Ok bs /\
    Z.of_nat (length bs) = sat_tag_size /\
    sat_tag_deserialize bs = Ok t.
Proof.
  intros t L6 Hpr Hpw.
  exists ((st_dst t ++ u16_bytes (st_proto t) ++ st_power t) ++ repeat 0 10).
  split; [| split].
  - unfold sat_tag_serialize, tb_write, sat_tag_size.
    rewrite L6. simpl. rewrite Hpw. simpl. rewrite <- !app_assoc. reflexivity.
  - rewrite !app_length, L6, Hpw. reflexivity.
  - unfold sat_tag_deserialize. rewrite <- !app_assoc.
    rewrite tb_take_app_n by exact L6. cbn [rbind].
    rewrite tb_take_app_n by reflexivity. cbn [rbind].
    rewrite tb_take_app_n by exact Hpw. cbn [rbind].
    destruct t as [d pr pw]; unfold u16_bytes;
    cbn [nth gt_dst gt_proto gt_power st_dst st_proto st_power] in *. do 2 f_equal. unfold is_u16 in *. lia.
Qed.
