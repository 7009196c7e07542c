(** C01, C02, C05. *)
From Coq Require Import ZArith List Lia Bool.
From Verif Require Import Base SatAddrModel SatAddrSpec SatAddrProofs.
Import ListNotations.
Open Scope Z_scope.

(** C01: wire round trip, getters, bytes in network order, equality. *)
Theorem address_wire_round_trip : forall h ty c p i,
  is_u16 c -> is_u16 p -> is_u16 i ->
  ga_data (convert_to h ty (sat_make h c p i)) = network_bytes c p i /\
  (exists b, convert_from h ty (convert_to h ty (sat_make h c p i)) = Ok b /\
     get_constellation h b = c /\ get_plane h b = p /\ get_index h b = i /\
     sat_eqb h b (sat_make h c p i) = true).
Proof.
  intros h ty c p i Hc Hp Hi. split.
  - rewrite convert_to_bytes by assumption. reflexivity.
  - exists (sat_make h c p i). rewrite round_trip by assumption.
    destruct (getters_make h c p i Hc Hp Hi) as (? & ? & ?).
    repeat split; auto. apply sat_eqb_make; auto.
Qed.
Print Assumptions address_wire_round_trip.

Theorem address_copy_round_trip : forall h c p i,
  is_u16 c -> is_u16 p -> is_u16 i ->
  copy_to h (sat_make h c p i) = network_bytes c p i /\
  copy_from h (copy_to h (sat_make h c p i)) = Ok (sat_make h c p i).
Proof.
  intros h c p i Hc Hp Hi. split.
  - apply copy_to_bytes; assumption.
  - apply copy_from_to; simpl; rewrite u16_id by assumption; apply htons_range; assumption.
Qed.
Print Assumptions address_copy_round_trip.

Theorem address_bytes_injective : forall h ty c p i c' p' i',
  is_u16 c -> is_u16 p -> is_u16 i -> is_u16 c' -> is_u16 p' -> is_u16 i' ->
  convert_to h ty (sat_make h c p i) = convert_to h ty (sat_make h c' p' i') ->
  (c, p, i) = (c', p', i') /\
  sat_eqb h (sat_make h c p i) (sat_make h c' p' i') = true.
Proof.
  intros h ty c p i c' p' i' Hc Hp Hi Hc' Hp' Hi' E.
  rewrite !convert_to_bytes in E by assumption. injection E as E.
  assert (N : network_bytes c p i = network_bytes c' p' i') by (unfold network_bytes; congruence).
  apply network_bytes_inj in N. destruct N as (-> & -> & ->).
  split; [reflexivity | apply sat_eqb_make; auto].
Qed.
Print Assumptions address_bytes_injective.

Theorem address_equality_is_field_equality : forall h c p i c' p' i',
  is_u16 c -> is_u16 p -> is_u16 i -> is_u16 c' -> is_u16 p' -> is_u16 i' ->
  (sat_eqb h (sat_make h c p i) (sat_make h c' p' i') = true <-> (c, p, i) = (c', p', i')) /\
  (sat_neqb h (sat_make h c p i) (sat_make h c' p' i') = true <-> (c, p, i) <> (c', p', i')).
Proof.
  intros. assert (E := sat_eqb_make h c p i c' p' i' H H0 H1 H2 H3 H4).
  split.
  - rewrite E. split; [intros (->&->&->); reflexivity | intros Q; inversion Q; auto].
  - unfold sat_neqb. rewrite negb_true_iff. split.
    + intros F Q. inversion Q; subst.
      assert (T : sat_eqb h (sat_make h c' p' i') (sat_make h c' p' i') = true) by (apply E; auto).
      congruence.
    + intros N. destruct (sat_eqb h _ _) eqn:Q; [|reflexivity].
      destruct (proj1 E eq_refl) as (->&->&->). congruence.
Qed.
Print Assumptions address_equality_is_field_equality.

(** The address used by the project's own unit test, on both kinds of host. *)
Example address_case : forall h,
  ga_data (convert_to h 7 (sat_make h 61455 57630 53805)) = [240; 15; 225; 30; 210; 45].
Proof. intros []; reflexivity. Qed.

(** C02: decoding is strict and lossless. *)
Theorem address_decoding_strict : forall h ty a,
  Forall byte (ga_data a) ->
  (readable_as_satellite ty (ga_type a) (ga_data a) <->
     exists s, convert_from h ty a = Ok s) /\
  (~ readable_as_satellite ty (ga_type a) (ga_data a) <-> convert_from h ty a = Assert) /\
  (forall s, convert_from h ty a = Ok s ->
     ga_data (convert_to h ty s) = ga_data a).
Proof.
  intros h ty a B. destruct (convert_from_iff h ty a B) as [Y N].
  assert (D : readable_as_satellite ty (ga_type a) (ga_data a) \/
              ~ readable_as_satellite ty (ga_type a) (ga_data a)).
  { unfold readable_as_satellite.
    destruct (Nat.eq_dec (length (ga_data a)) 6), (Z.eq_dec (ga_type a) ty),
      (Z.eq_dec (ga_type a) 0); tauto. }
  split; [| split].
  - split; [intros R; destruct (Y R) as (s & E & _); eauto |].
    intros [s E]. destruct D as [R | R]; [exact R |]. rewrite (N R) in E. discriminate.
  - split; [exact N |]. intros E R. destruct (Y R) as (s & E' & _). congruence.
  - intros s E. destruct D as [R | R].
    + destruct (Y R) as (s' & E' & Q). congruence.
    + rewrite (N R) in E. discriminate.
Qed.
Print Assumptions address_decoding_strict.

Example decoding_cases :
  convert_from LittleEndian 7 (mkGen 0 [1; 2; 3; 4; 5; 6]) = Ok (sat_make LittleEndian 258 772 1286)
  /\ convert_from LittleEndian 7 (mkGen 8 [1; 2; 3; 4; 5; 6]) = Assert
  /\ convert_from LittleEndian 7 (mkGen 0 [1; 2; 3; 4; 5; 6; 7]) = Assert.
Proof. repeat split. Qed.

(** C05: tags. *)
Theorem ground_tag_round_trip : forall h c p i proto power,
  is_u16 c -> is_u16 p -> is_u16 i -> is_u16 proto -> length power = 8%nat ->
  exists bs,
    ground_tag_serialize h (mkGTag (sat_make h c p i) proto power) = Ok bs /\
    Z.of_nat (length bs) = ground_tag_size /\
    exists t, ground_tag_deserialize h bs = Ok t /\
      get_constellation h (gt_dst t) = c /\ get_plane h (gt_dst t) = p /\
      get_index h (gt_dst t) = i /\ gt_proto t = proto /\ gt_power t = power.
Proof.
  intros h c p i proto power Hc Hp Hi Hpr Hpw.
  destruct (ground_tag_round h (mkGTag (sat_make h c p i) proto power)) as (bs & S & L & D);
    simpl; try rewrite u16_id; try apply htons_range; auto.
  exists bs. repeat split; auto.
  exists (mkGTag (sat_make h c p i) proto power). split; [exact D |].
  destruct (getters_make h c p i Hc Hp Hi) as (? & ? & ?). simpl; auto.
Qed.
Print Assumptions ground_tag_round_trip.

Theorem satellite_tag_round_trip : forall dst proto power,
  length dst = 6%nat -> is_u16 proto -> length power = 8%nat ->
  exists bs,
    sat_tag_serialize (mkSTag dst proto power) = Ok bs /\
    Z.of_nat (length bs) = sat_tag_size /\
    exists t, sat_tag_deserialize bs = Ok t /\ st_proto t = proto /\ st_power t = power.
Proof.
  intros dst proto power L6 Hpr Hpw.
  destruct (sat_tag_round (mkSTag dst proto power)) as (bs & S & L & D); auto.
  exists bs. repeat split; auto. exists (mkSTag dst proto power). auto.
Qed.
Print Assumptions satellite_tag_round_trip.

Example ground_tag_case :
  rbind (ground_tag_serialize LittleEndian
           (mkGTag (sat_make LittleEndian 1 2 3) 34525 [1;2;3;4;5;6;7;8]))
        (ground_tag_deserialize LittleEndian)
  = Ok (mkGTag (sat_make LittleEndian 1 2 3) 34525 [1;2;3;4;5;6;7;8]).
Proof. reflexivity. Qed.
