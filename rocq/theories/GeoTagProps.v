(** C17 - C22. *)
From Coq Require Import ZArith List Lia Bool Arith.
From Verif Require Import Base SatAddrModel SatAddrProofs ConstellationModel ConstellationSpec
  ConstellationProofs ConstellationProps IslModel IslSpec IslProofs IslProps
  GeoTagModel GeoTagSpec GeoTagProofs.
Import ListNotations.
Open Scope Z_scope.

Lemma prev_mod' : forall n a, 0 < n -> (n + a - 1) mod n = (a - 1) mod n.
Proof. intros. replace (n + a - 1) with (a - 1 + 1 * n) by lia. apply Z_mod_plus_full. Qed.

(** C17.  [here] is the current satellite, [tag] the tagged one. *)
Theorem direction_is_shortest : forall P S here tag,
  0 < P <= 65536 -> 0 < S <= 65536 -> in_grid P S here -> in_grid P S tag ->
  let t := get_target P S (fst tag) (snd tag) (fst here) (snd here) in
  (t = SEND_TO_GROUND <-> here = tag) /\
  (fst here <> fst tag -> along_planes t) /\
  (fst here = fst tag -> snd here <> snd tag -> along_plane t) /\
  (here <> tag -> griddist P S (towards P S t here) tag = griddist P S here tag - 1) /\
  (fst here <> fst tag -> 2 * ringdist P (fst here) (fst tag) = P ->
     t = if fst tag >? fst here then NEXT_PLANE else PREVIOUS_PLANE) /\
  (fst here = fst tag -> snd here <> snd tag -> 2 * ringdist S (snd here) (snd tag) = S ->
     t = if snd tag >? snd here then NEXT_SAT else PREVIOUS_SAT).
Proof.
  intros P S [p i] [q j] HP HS [Hp Hi] [Hq Hj]; cbn [fst snd] in *. cbv zeta.
  rewrite get_target_forward. unfold along_planes, along_plane, griddist.
  destruct (Z.eqb_spec q p) as [->|Nq].
  - destruct (Z.eqb_spec j i) as [->|Nj].
    + repeat split; auto; intros; try congruence; try lia.
    + destruct (forward_spec S i j HS Hi Hj ltac:(auto)) as (F1 & F2 & F3).
      rewrite prev_mod' in F2 by lia.
      destruct (forward S i j) eqn:F.
      * repeat split; auto; intros; try discriminate; try congruence; cbn [towards fst snd].
        -- rewrite F1 by auto. lia.
        -- rewrite Z.gtb_ltb. destruct (Z.ltb_spec i j); [reflexivity|]. assert (j > i) by (apply F3; auto). lia.
      * repeat split; auto; intros; try discriminate; try congruence; cbn [towards fst snd].
        -- rewrite F2 by auto. lia.
        -- rewrite Z.gtb_ltb. destruct (Z.ltb_spec i j); [|reflexivity].
           assert (false = true) by (apply F3; auto; lia). discriminate.
  - destruct (forward_spec P p q HP Hp Hq ltac:(auto)) as (F1 & F2 & F3).
    rewrite prev_mod' in F2 by lia.
    destruct (forward P p q) eqn:F.
    + repeat split; auto; intros; try discriminate; try congruence; cbn [towards fst snd].
      * rewrite F1 by auto. lia.
      * rewrite Z.gtb_ltb. destruct (Z.ltb_spec p q); [reflexivity|]. assert (q > p) by (apply F3; auto). lia.
    + repeat split; auto; intros; try discriminate; try congruence; cbn [towards fst snd].
      * rewrite F2 by auto. lia.
      * rewrite Z.gtb_ltb. destruct (Z.ltb_spec p q); [|reflexivity].
        assert (false = true) by (apply F3; auto; lia). discriminate.
Qed.
Print Assumptions direction_is_shortest.

Example direction_cases :
  get_target 6 20 4 7 0 7 = PREVIOUS_PLANE /\ get_target 6 20 3 7 0 7 = NEXT_PLANE /\
  get_target 6 20 0 7 3 7 = PREVIOUS_PLANE /\ get_target 5 20 3 7 0 7 = PREVIOUS_PLANE.
Proof. repeat split; reflexivity. Qed.

