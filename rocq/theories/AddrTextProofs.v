From Coq Require Import Ascii String ZArith List Lia Bool.
From Verif Require Import Base SatAddrModel SatAddrProofs AddrTextModel AddrTextSpec.
Import ListNotations.
Open Scope Z_scope.
Open Scope list_scope.
#[local] Ltac Zify.zify_post_hook ::= Z.to_euclidean_division_equations.

Definition range16 : list Z := map Z.of_nat (seq 0 16).

Lemma in_range16 : forall d, 0 <= d < 16 -> In d range16.
Proof.
  intros. unfold range16. apply in_map_iff. exists (Z.to_nat d). split; [lia|].
  apply in_seq. lia.
Qed.

Lemma forall16 : forall P : Z -> bool, forallb P range16 = true ->
  forall d, 0 <= d < 16 -> P d = true.
Proof. intros P H d Hd. rewrite forallb_forall in H. apply H, in_range16, Hd. Qed.

Lemma digit_facts : forall d, 0 <= d < 16 ->
  hex_char d = digit d /\ hex_val (digit d) = Some d /\ is_space (digit d) = false.
Proof.
  intros d Hd.
  pose (P := fun d => Ascii.eqb (hex_char d) (digit d) &&
     match hex_val (digit d) with Some v => Z.eqb v d | None => false end &&
     negb (is_space (digit d))).
  assert (E : P d = true) by (apply (forall16 P); [vm_compute; reflexivity | exact Hd]).
  unfold P in E. rewrite !andb_true_iff in E. destruct E as [[E1 E2] E3].
  apply Ascii.eqb_eq in E1. split; [exact E1 |].
  destruct (hex_val (digit d)); [|discriminate]. apply Z.eqb_eq in E2. subst.
  apply negb_true_iff in E3. auto.
Qed.

Lemma hexd_val : forall d c, 0 <= d < 16 ->
  c = digit d \/ c = nth (Z.to_nat d) upper_digits "?"%char ->
  hex_val c = Some d /\ is_space c = false /\ Ascii.eqb c "-" = false /\ Ascii.eqb c "+" = false /\
  Ascii.eqb c colon = false /\ Ascii.eqb c "x" = false /\ Ascii.eqb c "X" = false /\
  Ascii.eqb c "0" = (d =? 0).
Proof.
  intros d c Hd Hc.
  pose (Q := fun c d => match hex_val c with Some v => Z.eqb v d | None => false end &&
     negb (is_space c) && negb (Ascii.eqb c "-") && negb (Ascii.eqb c "+") &&
     negb (Ascii.eqb c colon) && negb (Ascii.eqb c "x") && negb (Ascii.eqb c "X") &&
     Bool.eqb (Ascii.eqb c "0") (d =? 0)).
  assert (E : Q c d = true).
  { destruct Hc; subst c.
    - apply (forall16 (fun d => Q (digit d) d)); [vm_compute; reflexivity | exact Hd].
    - apply (forall16 (fun d => Q (nth (Z.to_nat d) upper_digits "?"%char) d));
        [vm_compute; reflexivity | exact Hd]. }
  unfold Q in E. rewrite !andb_true_iff, !negb_true_iff in E.
  destruct E as [[[[[[[E1 E2] E3] E4] E5] E6] E7] E8].
  apply Bool.eqb_prop in E8.
  destruct (hex_val c) eqn:V; [|discriminate]. apply Z.eqb_eq in E1. subst.
  repeat split; assumption.
Qed.

Lemma hex_val_in : forall c v, hex_val c = Some v ->
  In c hexadecimal_digits \/ In c upper_digits.
Proof.
  intros c v.
  assert (A : forallb (fun n => match hex_val (ascii_of_nat n) with
     | Some _ => existsb (Ascii.eqb (ascii_of_nat n)) (hexadecimal_digits ++ upper_digits)
     | None => true end) (seq 0 256) = true) by (vm_compute; reflexivity).
  rewrite forallb_forall in A. intros H.
  assert (B : In (nat_of_ascii c) (seq 0 256)).
  { apply in_seq. pose proof (nat_ascii_bounded c). lia. }
  specialize (A _ B). rewrite ascii_nat_embedding, H in A.
  apply existsb_exists in A. destruct A as (x & Hin & Hx).
  apply Ascii.eqb_eq in Hx. subst. apply in_app_or. exact Hin.
Qed.

(** *** Printing *)

Lemma hex_min_group : forall x, is_u16 x -> setw 4 "0" (hex_min 4 x) = group x.
Proof.
  intros x [L U]. unfold group.
  assert (D : forall y, 0 <= y -> hex_char (y mod 16) = digit (y mod 16)).
  { intros; apply digit_facts. apply Z.mod_pos_bound. lia. }
  assert (Z0 : digit 0 = "0"%char) by reflexivity.
  cbn [hex_min].
  destruct (x <? 16) eqn:E1; [apply Z.ltb_lt in E1 | apply Z.ltb_ge in E1].
  { rewrite D by lia. unfold setw. cbn [app length Nat.sub repeat].
    replace (x / 4096) with 0 by (symmetry; apply Z.div_small; lia).
    replace (x / 256) with 0 by (symmetry; apply Z.div_small; lia).
    replace (x / 16) with 0 by (symmetry; apply Z.div_small; lia). reflexivity. }
  assert (Q : x / 16 / 16 = x / 256) by (rewrite Z.div_div by lia; reflexivity).
  assert (Q3 : x / 256 / 16 = x / 4096) by (rewrite Z.div_div by lia; reflexivity).
  destruct (x / 16 <? 16) eqn:E2; [apply Z.ltb_lt in E2 | apply Z.ltb_ge in E2].
  { rewrite !D by (try apply Z.div_pos; lia). unfold setw. cbn [app length Nat.sub repeat].
    assert (x < 256) by lia.
    replace (x / 4096) with 0 by (symmetry; apply Z.div_small; lia).
    replace (x / 256) with 0 by (symmetry; apply Z.div_small; lia). reflexivity. }
  rewrite Q.
  destruct (x / 256 <? 16) eqn:E3; [apply Z.ltb_lt in E3 | apply Z.ltb_ge in E3].
  { rewrite !D by (try apply Z.div_pos; lia). unfold setw. cbn [app length Nat.sub repeat].
    assert (x < 4096) by lia.
    replace (x / 4096) with 0 by (symmetry; apply Z.div_small; lia). reflexivity. }
  rewrite Q3.
  assert (E4 : x / 4096 <? 16 = true) by (apply Z.ltb_lt; lia).
  rewrite E4. rewrite !D by (try apply Z.div_pos; lia).
  unfold setw. cbn [app length Nat.sub repeat].
  rewrite (Z.mod_small (x / 4096)) by lia. reflexivity.
Qed.

Lemma print_address_text : forall h c p i, is_u16 c -> is_u16 p -> is_u16 i ->
  print_address h (sat_make h c p i) = address_text c p i.
Proof.
  intros. unfold print_address, address_text.
  destruct (getters_make h c p i) as (-> & -> & ->); auto.
  rewrite !hex_min_group by assumption. reflexivity.
Qed.

(** *** Reading *)

Lemma numeral_nonempty : forall w v, numeral w v -> exists c r, w = c :: r.
Proof.
  intros w v H. inversion H; subst; [eauto|].
  destruct w0; simpl; eauto.
Qed.

Lemma numeral_take : forall w v, numeral w v -> 0 <= v /\
  exists ds, digits_value ds = v /\ ds <> [] /\
   (forall rest, (match rest with [] => True | c :: _ => hex_val c = None end) ->
      take_hex (w ++ rest) = (ds, rest)) /\
   length ds = length w /\
   (forall rest rs rr, take_hex rest = (rs, rr) -> take_hex (w ++ rest) = (ds ++ rs, rr)).
Proof.
  induction 1 as [d c Hd Hc | w v d c Hw IH Hd Hc].
  - split; [lia|]. exists [d]. destruct (hexd_val d c Hd Hc) as (V & _).
    repeat split.
    + discriminate.
    + intros rest Hr. cbn [app take_hex]. rewrite V.
      destruct rest as [|a r]; [reflexivity|]. cbn [take_hex]. rewrite Hr. reflexivity.
    + intros rest rs rr Hr. cbn [app take_hex]. rewrite V, Hr. reflexivity.
  - destruct IH as (Pv & ds & E & N & T & L & C). split; [lia|].
    destruct (hexd_val d c Hd Hc) as (V & _).
    exists (ds ++ [d]). repeat split.
    + unfold digits_value in *. rewrite fold_left_app. cbn [fold_left]. rewrite E. reflexivity.
    + destruct ds; discriminate.
    + intros rest Hr. rewrite <- app_assoc. apply C. cbn [app take_hex]. rewrite V.
      destruct rest as [|a r]; [reflexivity|]. cbn [take_hex]. rewrite Hr. reflexivity.
    + rewrite !app_length, L. reflexivity.
    + intros rest rs rr Hr. rewrite <- !app_assoc. apply C. cbn [app take_hex].
      rewrite V, Hr. reflexivity.
Qed.

Lemma numeral_head : forall w v, numeral w v -> forall c r, w = c :: r ->
  exists d, 0 <= d < 16 /\ (c = digit d \/ c = nth (Z.to_nat d) upper_digits "?"%char).
Proof.
  induction 1; intros a r E.
  - inversion E; subst. eauto.
  - destruct w as [|b w]; simpl in E; inversion E; subst; eauto.
Qed.

Lemma numeral_second : forall w v, numeral w v -> forall c a r, w = c :: a :: r ->
  exists d, 0 <= d < 16 /\ (a = digit d \/ a = nth (Z.to_nat d) upper_digits "?"%char).
Proof.
  induction 1; intros x a r E.
  - inversion E.
  - destruct w as [|b [|b' w]]; simpl in E; inversion E; subst; eauto.
Qed.

Lemma numeral_no_colon : forall w v, numeral w v -> forall c, In c w -> Ascii.eqb c colon = false.
Proof.
  induction 1; intros a Hin.
  - destruct Hin as [<-|[]]. apply (hexd_val d c H H0).
  - apply in_app_or in Hin. destruct Hin as [Hin|[<-|[]]]; auto. apply (hexd_val d c H0 H1).
Qed.

Lemma until_delim_app : forall w rest, (forall c, In c w -> Ascii.eqb c colon = false) ->
  until_delim colon (w ++ colon :: rest) = (w, Some rest).
Proof.
  induction w; intros rest H; cbn [app until_delim].
  - rewrite Ascii.eqb_refl. reflexivity.
  - rewrite (H a) by (left; reflexivity). rewrite IHw; [reflexivity|].
    intros; apply H; right; assumption.
Qed.

Lemma ends_numeral_hex : forall rest, ends_numeral rest ->
  match rest with [] => True | c :: _ => hex_val c = None end.
Proof.
  destruct rest as [|c r]; [auto|]. intros (A & B & _).
  destruct (hex_val c) eqn:E; [|reflexivity]. apply hex_val_in in E. tauto.
Qed.

Lemma extract_numeral : forall w v rest, numeral w v -> v < 65536 -> ends_numeral rest ->
  extract_hex (istringstream (w ++ rest)) =
  (Some v, mkIs rest (match rest with [] => true | _ => false end) false).
Proof.
  intros w v rest Hn Hv He.
  destruct (numeral_take w v Hn) as (Pv & ds & E & N & T & L & C).
  pose proof (ends_numeral_hex rest He) as He'.
  destruct (numeral_nonempty w v Hn) as (c & r & ->).
  destruct (numeral_head _ _ Hn c r eq_refl) as (d & Hd & Hc).
  destruct (hexd_val d c Hd Hc) as (V & Sp & M & P & _ & _ & _ & Zr).
  unfold extract_hex, istringstream, good; cbn [eofb failb negb andb buf].
  cbn [app skip_ws]. rewrite Sp. unfold strip_sign. rewrite M, P.
  assert (D : (if 65535 <? digits_value ds then true else false) = false).
  { rewrite E. destruct (65535 <? v) eqn:Q; [apply Z.ltb_lt in Q; lia | reflexivity]. }
  assert (TT := T rest He'). cbn [app take_hex] in TT. rewrite V in TT.
  cbn [strip_prefix]. rewrite Zr.
  destruct (d =? 0) eqn:D0.
  - apply Z.eqb_eq in D0. subst d.
    (* a leading zero *)
    assert (X : match r ++ rest with
       | [] => (true, [])
       | x :: r' => if Ascii.eqb x "x" || Ascii.eqb x "X" then strip_prefix r' else (true, r ++ rest)
       end = (true, r ++ rest)).
    { destruct r as [|a r0].
      - simpl. destruct rest as [|a r1]; [reflexivity|].
        destruct He as (_ & _ & X1 & X2).
        destruct (Ascii.eqb_spec a "x"); [contradiction|].
        destruct (Ascii.eqb_spec a "X"); [contradiction|]. reflexivity.
      - simpl. destruct (numeral_second _ _ Hn c a r0 eq_refl) as (d2 & Hd2 & Hc2).
        destruct (hexd_val d2 a Hd2 Hc2) as (_ & _ & _ & _ & _ & X1 & X2 & _).
        rewrite X1, X2. reflexivity. }
    unfold text in *. rewrite X. destruct (take_hex (r ++ rest)) as [ds' r'] eqn:TK.
    inversion TT; subst ds r'. cbn [negb andb].
    assert (DV : digits_value ds' = digits_value (0 :: ds')) by reflexivity.
    rewrite DV. destruct (65535 <? digits_value (0 :: ds')); [discriminate|].
    rewrite E. reflexivity.
  - assert (TT' : take_hex (c :: r ++ rest) = (ds, rest)) by (apply T; exact He').
    rewrite TT'. cbn [negb].
    destruct ds as [|x ds]; [contradiction|]. cbn [andb].
    destruct (65535 <? digits_value (x :: ds)); [discriminate|].
    rewrite E. reflexivity.
Qed.

Lemma read_wellformed : forall h w1 w2 w3 c p i rest,
  numeral w1 c -> numeral w2 p -> numeral w3 i ->
  c < 65536 -> p < 65536 -> i < 65536 -> ends_numeral rest ->
  read_address h (istringstream (w1 ++ [colon] ++ w2 ++ [colon] ++ w3 ++ rest)) =
  (Ok (sat_make h c p i), mkIs rest (match rest with [] => true | _ => false end) false).
Proof.
  intros h w1 w2 w3 c p i rest N1 N2 N3 B1 B2 B3 He.
  unfold read_address. unfold getline at 1. unfold good at 1. unfold istringstream at 1 2 3.
  cbn [eofb failb negb andb buf app].
  rewrite until_delim_app by (eapply numeral_no_colon; eassumption).
  pose proof (extract_numeral w1 c [] N1 B1 I) as X1. rewrite app_nil_r in X1. rewrite X1.
  unfold getline, good; cbn [eofb failb negb andb buf].
  rewrite until_delim_app by (eapply numeral_no_colon; eassumption).
  pose proof (extract_numeral w2 p [] N2 B2 I) as X2. rewrite app_nil_r in X2. rewrite X2.
  cbn [fst].
  pose proof (extract_numeral w3 i rest N3 B3 He) as X. unfold istringstream in X.
  rewrite X. reflexivity.
Qed.

Lemma group_numeral : forall x, is_u16 x -> numeral (group x) x.
Proof.
  intros x [L U]. unfold group.
  assert (D : forall y, 0 <= y mod 16 < 16) by (intros; apply Z.mod_pos_bound; lia).
  replace x with (16 * (16 * (16 * (x / 4096) + x / 256 mod 16) + x / 16 mod 16) + x mod 16) at 5
    by (pose proof (Z.div_mod x 16 ltac:(lia)); pose proof (Z.div_mod (x/16) 16 ltac:(lia));
        pose proof (Z.div_mod (x/256) 16 ltac:(lia));
        rewrite Z.div_div in * by lia;
        change (16 * 16) with 256 in *; change (256 * 16) with 4096 in *; lia).
  apply (numeral_more [digit (x / 4096); digit (x / 256 mod 16); digit (x / 16 mod 16)]);
    [| apply D | left; reflexivity].
  apply (numeral_more [digit (x / 4096); digit (x / 256 mod 16)]);
    [| apply D | left; reflexivity].
  apply (numeral_more [digit (x / 4096)]);
    [| apply D | left; reflexivity].
  apply numeral_one; [| left; reflexivity]. lia.
Qed.

Lemma read_print : forall h c p i rest,
  is_u16 c -> is_u16 p -> is_u16 i -> ends_numeral rest ->
  read_address h (istringstream (print_address h (sat_make h c p i) ++ rest)) =
  (Ok (sat_make h c p i), mkIs rest (match rest with [] => true | _ => false end) false).
Proof.
  intros. rewrite print_address_text by assumption. unfold address_text.
  rewrite <- !app_assoc.
  apply (read_wellformed h (group c) (group p) (group i)); auto using group_numeral;
    unfold is_u16 in *; lia.
Qed.

Lemma group_length : forall x, length (group x) = 4%nat.
Proof. reflexivity. Qed.

(** *** What a successful read guarantees *)

Lemma until_delim_split : forall t x r, until_delim colon t = (x, Some r) -> t = x ++ colon :: r.
Proof.
  induction t as [|a t IH]; intros x r H; cbn [until_delim] in H; [discriminate|].
  destruct (Ascii.eqb_spec a colon).
  - inversion H; subst. reflexivity.
  - destruct (until_delim colon t) as [x' y] eqn:E. inversion H; subst.
    simpl. f_equal. apply IH. reflexivity.
Qed.

Lemma until_delim_in : forall t x y, until_delim colon t = (x, y) -> ~ In colon x.
Proof.
  induction t as [|a t IH]; intros x y H; cbn [until_delim] in H.
  - inversion H; subst. auto.
  - destruct (Ascii.eqb_spec a colon).
    + inversion H; subst. auto.
    + destruct (until_delim colon t) as [x' y'] eqn:E. inversion H; subst.
      intros [Q|Q]; [congruence|]. eapply IH; [reflexivity|exact Q].
Qed.

Lemma read_ok_two_colons : forall h t,
  failb (snd (read_address h (istringstream t))) = false ->
  exists w1 w2 tail, t = w1 ++ [colon] ++ w2 ++ [colon] ++ tail /\ ~ In colon w1 /\ ~ In colon w2.
Proof.
  intros h t. unfold read_address. change (istringstream t) with (mkIs t false false).
  unfold getline, good; cbn [eofb failb negb andb buf].
  destruct (until_delim colon t) as [x1 [r1|]] eqn:E1; cbn [eofb failb negb andb buf].
  - destruct (until_delim colon r1) as [x2 [r2|]] eqn:E2; cbn [eofb failb negb andb buf].
    + intros _. exists x1, x2, r2. apply until_delim_in in E1 as I1. apply until_delim_in in E2 as I2.
      apply until_delim_split in E1. apply until_delim_split in E2. subst. auto.
    + unfold extract_hex, good; cbn [eofb failb negb andb buf snd]. discriminate.
  - unfold extract_hex, good; cbn [eofb failb negb andb buf snd]. discriminate.
Qed.

(** *** What a group is read as *)

Lemma every_char (P : ascii -> bool) : forallb (fun n => P (ascii_of_nat n)) (seq 0 256) = true -> forall c, P c = true.
Proof.
  intros A c. rewrite forallb_forall in A. rewrite <- (ascii_nat_embedding c). apply A. apply in_seq.
  pose proof (nat_ascii_bounded c). lia.
Qed.

Lemma in_mem (c : ascii) l : In c l <-> existsb (Ascii.eqb c) l = true.
Proof.
  rewrite existsb_exists. split.
  - intros H. exists c. split; [exact H|apply Ascii.eqb_refl].
  - intros (x & H & E). apply Ascii.eqb_eq in E. subst. exact H.
Qed.

Lemma space_blank c : is_space c = true <-> In c blanks.
Proof.
  rewrite in_mem. assert (E : Bool.eqb (is_space c) (existsb (Ascii.eqb c) blanks) = true) by
    (apply (every_char (fun c => Bool.eqb (is_space c) (existsb (Ascii.eqb c) blanks))); vm_compute; reflexivity).
  apply Bool.eqb_prop in E. rewrite E. reflexivity.
Qed.

Lemma val_digit c : (exists v, hex_val c = Some v) <-> In c (hexadecimal_digits ++ upper_digits).
Proof.
  rewrite in_mem. pose (Q := fun c => Bool.eqb (match hex_val c with Some _ => true | None => false end)
    (existsb (Ascii.eqb c) (hexadecimal_digits ++ upper_digits))).
  assert (E : Q c = true) by (apply every_char; vm_compute; reflexivity).
  unfold Q in E. apply Bool.eqb_prop in E. rewrite <- E. destruct (hex_val c); split; try discriminate; eauto.
  intros (v & H). discriminate.
Qed.

Lemma val_digits c v : hex_val c = Some v -> 0 <= v < 16 /\ (c = digit v \/ c = nth (Z.to_nat v) upper_digits "?"%char).
Proof.
  pose (Q := fun c => match hex_val c with Some v => (0 <=? v) && (v <? 16) &&
    (Ascii.eqb c (digit v) || Ascii.eqb c (nth (Z.to_nat v) upper_digits "?"%char)) | None => true end).
  assert (E : Q c = true) by (apply every_char; vm_compute; reflexivity).
  intros H. unfold Q in E. rewrite H in E. rewrite !andb_true_iff, orb_true_iff, !Ascii.eqb_eq in E.
  destruct E as [[E1 E2] E3]. apply Z.leb_le in E1. apply Z.ltb_lt in E2. auto.
Qed.

Lemma not_starting l t : ~ starts_with l t -> match t with [] => True | c :: _ => ~ In c l end.
Proof. destruct t as [|c r]; [trivial|]. intros H J. apply H. exists c, r. auto. Qed.

Lemma no_digit_first t : ~ starts_with (hexadecimal_digits ++ upper_digits) t -> match t with [] => True | c :: _ => hex_val c = None end.
Proof.
  intros H. apply not_starting in H. destruct t as [|c r]; [trivial|].
  destruct (hex_val c) eqn:E; [|reflexivity]. destruct H. apply val_digit. eauto.
Qed.

Lemma skip_blanks b t : Forall (fun c => In c blanks) b -> skip_ws (b ++ t) = skip_ws t.
Proof.
  induction 1 as [|c b H _ IH]; [reflexivity|]. apply space_blank in H. cbn. rewrite H. exact IH.
Qed.

Lemma skip_prefixes p t : prefixes p -> strip_prefix (p ++ t) = strip_prefix t.
Proof.
  induction 1 as [|x p Hx _ IH]; [reflexivity|]. cbn.
  destruct Hx as [<-|[<-|[]]]; cbn; exact IH.
Qed.

Lemma extract_blank b : Forall (fun c => In c blanks) b -> extract_hex (istringstream b) = (None, mkIs [] true true).
Proof.
  intros H. unfold extract_hex, istringstream, good. cbn [eofb failb negb andb buf].
  rewrite <- (app_nil_r b), skip_blanks by exact H. reflexivity.
Qed.

(** Past the blanks and the sign. *)
Definition from_sign (neg : bool) (t1 : text) : option Z * istream :=
  let (zero, t2) := strip_prefix t1 in
  let (ds, r) := take_hex t2 in
  let e := match r with [] => true | _ => false end in
  if negb zero && match ds with [] => true | _ => false end
  then (Some 0, mkIs r e true)
  else if 65535 <? digits_value ds
  then (Some 65535, mkIs r e true)
  else (Some (if neg then u16 (- digits_value ds) else digits_value ds), mkIs r e false).

Lemma extract_signed b s neg t : Forall (fun c => In c blanks) b -> signed s neg -> s ++ t <> [] ->
  (s = [] -> ~ starts_with (blanks ++ ["+"; "-"]%char) t) ->
  extract_hex (istringstream (b ++ s ++ t)) = from_sign neg t.
Proof.
  intros Hb Hs Hn Ht. unfold extract_hex, istringstream, good. cbn [eofb failb negb andb buf].
  rewrite skip_blanks by exact Hb.
  destruct Hs.
  - cbn [app] in *. specialize (Ht eq_refl). apply not_starting in Ht. destruct t as [|c r]; [congruence|].
    rewrite in_app_iff in Ht.
    assert (E : is_space c = false).
    { destruct (is_space c) eqn:X; [|reflexivity]. apply space_blank in X. tauto. }
    cbn [skip_ws]. rewrite E. unfold strip_sign.
    destruct (Ascii.eqb_spec c "-"); [subst; cbn in Ht; tauto|].
    destruct (Ascii.eqb_spec c "+"); [subst; cbn in Ht; tauto|]. reflexivity.
  - reflexivity.
  - reflexivity.
Qed.

Lemma from_number neg p w v rest : prefixes p -> numeral w v -> ~ starts_with (hexadecimal_digits ++ upper_digits) rest ->
  ~ (w = ["0"%char] /\ starts_with ["x"; "X"]%char rest) ->
  from_sign neg (p ++ w ++ rest) =
    (Some (if 65535 <? v then 65535 else if neg then (65536 - v) mod 65536 else v),
     mkIs rest (match rest with [] => true | _ => false end) (65535 <? v)).
Proof.
  intros Hp Hn He Hx. unfold from_sign. rewrite skip_prefixes by exact Hp. clear p Hp.
  destruct (numeral_take w v Hn) as (Pv & ds & E & N & T & L & C).
  apply no_digit_first in He.
  destruct (numeral_nonempty w v Hn) as (c & r & ->).
  destruct (numeral_head _ _ Hn c r eq_refl) as (d & Hd & Hc).
  destruct (hexd_val d c Hd Hc) as (V & _ & _ & _ & _ & _ & _ & Zr).
  assert (TT := T rest He). cbn [app take_hex] in TT. rewrite V in TT.
  assert (U : forall x, 65535 <? x = false -> 0 <= x -> u16 (- x) = (65536 - x) mod 65536).
  { intros x _ _. unfold u16. replace (65536 - x) with (- x + 1 * 65536) by lia. rewrite Z.mod_add by lia. reflexivity. }
  cbn [app strip_prefix]. rewrite Zr.
  destruct (d =? 0) eqn:D0.
  - apply Z.eqb_eq in D0. subst d.
    assert (C0 : c = "0"%char) by (destruct Hc as [Hc|Hc]; exact Hc). subst c.
    assert (X : match r ++ rest with
       | [] => (true, [])
       | x :: r' => if Ascii.eqb x "x" || Ascii.eqb x "X" then strip_prefix r' else (true, r ++ rest)
       end = (true, r ++ rest)).
    { destruct r as [|a r0].
      - simpl. destruct rest as [|a r1]; [reflexivity|].
        destruct (Ascii.eqb_spec a "x"); [destruct Hx; split; [reflexivity|]; exists a, r1; cbn; auto|].
        destruct (Ascii.eqb_spec a "X"); [destruct Hx; split; [reflexivity|]; exists a, r1; cbn; auto|]. reflexivity.
      - simpl. destruct (numeral_second _ _ Hn "0"%char a r0 eq_refl) as (d2 & Hd2 & Hc2).
        destruct (hexd_val d2 a Hd2 Hc2) as (_ & _ & _ & _ & _ & X1 & X2 & _).
        rewrite X1, X2. reflexivity. }
    unfold text in *. rewrite X. destruct (take_hex (r ++ rest)) as [ds' r'] eqn:TK.
    inversion TT; subst ds r'. cbn [negb andb].
    assert (DV : digits_value ds' = v) by exact E.
    rewrite DV. destruct (65535 <? v) eqn:B; [reflexivity|]. destruct neg; [rewrite U by assumption|]; reflexivity.
  - assert (TT' : take_hex (c :: r ++ rest) = (ds, rest)) by (apply T; exact He).
    rewrite TT'. cbn [negb].
    destruct ds as [|x ds]; [contradiction|]. cbn [andb]. rewrite E.
    destruct (65535 <? v) eqn:B; [reflexivity|]. destruct neg; [rewrite U by assumption|]; reflexivity.
Qed.

Lemma from_nothing neg p rest : prefixes p -> ~ starts_with (hexadecimal_digits ++ upper_digits) rest ->
  from_sign neg (p ++ rest) = (Some 0, mkIs rest (match rest with [] => true | _ => false end) true).
Proof.
  intros Hp He. unfold from_sign. rewrite skip_prefixes by exact Hp. apply no_digit_first in He.
  destruct rest as [|c r]; [reflexivity|].
  destruct (Ascii.eqb_spec c "0"); [subst; discriminate He|].
  cbn [strip_prefix]. destruct (Ascii.eqb_spec c "0"); [congruence|]. cbn [take_hex]. rewrite He. reflexivity.
Qed.

Definition stream_after (r : text) (ok : bool) : istream := mkIs r (match r with [] => true | _ => false end) (negb ok).

Lemma digit_no_start c l : 0 <= l < 16 -> c = digit l \/ c = nth (Z.to_nat l) upper_digits "?"%char ->
  ~ In c (blanks ++ ["+"; "-"]%char).
Proof.
  intros Hl Hc. destruct (hexd_val l c Hl Hc) as (_ & Sp & M & P & _). rewrite in_app_iff. intros [H|H].
  - apply space_blank in H. congruence.
  - destruct H as [<-|[<-|[]]]; discriminate.
Qed.

Lemma reads_extract w v ok r : reads w v ok r -> extract_hex (istringstream w) = (v, stream_after r ok).
Proof.
  intros [b Hb | b s neg p w0 v0 rest Hb Hs Hp Hn He Hx | b s neg p rest Hb Hs Hp Hn He Hz].
  - apply extract_blank, Hb.
  - rewrite (extract_signed b s neg).
    + rewrite (from_number neg p w0 v0) by assumption. unfold stream_after. repeat f_equal.
      destruct (65535 <? v0) eqn:A, (v0 <=? 65535) eqn:B; try reflexivity;
        [apply Z.ltb_lt in A; apply Z.leb_le in B|apply Z.ltb_ge in A; apply Z.leb_gt in B]; lia.
    + exact Hb.
    + exact Hs.
    + destruct (numeral_nonempty _ _ Hn) as (c & q & ->). destruct s, p; discriminate.
    + intros ->. intros (c & q & E & H).
      destruct Hp as [|x p Hx' Hp'].
      * destruct (numeral_nonempty _ _ Hn) as (c' & q' & ->). injection E as -> _.
        destruct (numeral_head _ _ Hn c q' eq_refl) as (d & Hd & Hc). exact (digit_no_start c d Hd Hc H).
      * injection E as <- E. exact (digit_no_start "0"%char 0 ltac:(lia) (or_introl eq_refl) H).
  - rewrite (extract_signed b s neg).
    + rewrite from_nothing by assumption. reflexivity.
    + exact Hb.
    + exact Hs.
    + exact Hn.
    + intros ->. destruct Hp as [|x p Hx' Hp'].
      * apply Hz; reflexivity.
      * intros (c & q & E & H). injection E as <- E.
        exact (digit_no_start "0"%char 0 ltac:(lia) (or_introl eq_refl) H).
Qed.

Lemma take_numeral t ds r : take_hex t = (ds, r) -> exists w, t = w ++ r /\ ~ starts_with (hexadecimal_digits ++ upper_digits) r /\
  (ds <> [] -> w <> []) /\ Forall (fun c => exists v, hex_val c = Some v) w.
Proof.
  revert ds r. induction t as [|c t IH]; intros ds r H; cbn in H.
  - injection H as <- <-. exists []. repeat split; try constructor. intros (c & q & E & _). discriminate. congruence.
  - destruct (hex_val c) as [v|] eqn:V.
    + destruct (take_hex t) as [ds' r'] eqn:T. injection H as <- <-. destruct (IH _ _ eq_refl) as (w & E & N & _ & F).
      exists (c :: w). subst t. repeat split; [exact N|discriminate|constructor; eauto].
    + injection H as <- <-. exists []. repeat split; try constructor; [|congruence].
      intros (c' & q & E & H). injection E as <- <-. apply val_digit in H. destruct H as (v & H). congruence.
Qed.

Lemma hex_numeral w : Forall (fun c => exists v, hex_val c = Some v) w -> w <> [] -> exists v, numeral w v.
Proof.
  induction w as [|c w IH] using rev_ind; [congruence|]. intros F _. apply Forall_app in F. destruct F as [F Fc].
  inversion Fc as [|? ? (d & Hd) _]; subst. apply val_digits in Hd. destruct Hd as [Hd Hc].
  destruct w as [|a w].
  - exists d. apply numeral_one; assumption.
  - destruct IH as (v & Hv); [exact F|discriminate|]. exists (16 * v + d). apply (numeral_more (a :: w) v d c); assumption.
Qed.

Lemma split_prefixes : forall n t, (List.length t <= n)%nat -> exists p q, prefixes p /\ t = p ++ q /\
  ~ (exists x r, In x ["x"; "X"]%char /\ q = "0"%char :: x :: r).
Proof.
  induction n as [|n IH]; intros t Hl.
  - destruct t; [|cbn in Hl; lia]. exists [], []. split; [constructor|]. split; [reflexivity|]. intros (x & r & _ & E). discriminate.
  - destruct t as [|c t].
    { exists [], []. split; [constructor|]. split; [reflexivity|]. intros (x & r & _ & E). discriminate. }
    destruct t as [|x t].
    { exists [], [c]. split; [constructor|]. split; [reflexivity|]. intros (y & r & _ & E). discriminate. }
    destruct (Ascii.eqb_spec c "0").
    + destruct (existsb (Ascii.eqb x) ["x"; "X"]%char) eqn:X.
      * apply in_mem in X. destruct (IH t) as (p & q & Hp & E & Nq); [cbn in Hl; lia|].
        exists ("0"%char :: x :: p), q. subst. split; [constructor; assumption|]. split; [reflexivity|exact Nq].
      * exists [], (c :: x :: t). split; [constructor|]. split; [reflexivity|]. intros (y & r & Hy & E). injection E as _ -> _.
        apply in_mem in Hy. congruence.
    + exists [], (c :: x :: t). split; [constructor|]. split; [reflexivity|]. intros (y & r & Hy & E). injection E as E _ _. congruence.
Qed.

Lemma split_blanks t : exists b q, Forall (fun c => In c blanks) b /\ t = b ++ q /\ ~ starts_with blanks q.
Proof.
  induction t as [|c t IH].
  - exists [], []. split; [constructor|]. split; [reflexivity|]. intros (x & r & E & _). discriminate.
  - destruct (existsb (Ascii.eqb c) blanks) eqn:X.
    + apply in_mem in X. destruct IH as (b & q & Hb & E & N). exists (c :: b), q. subst. split; [constructor; assumption|]. auto.
    + exists [], (c :: t). split; [constructor|]. split; [reflexivity|]. intros (x & r & E & H). injection E as <- _. apply in_mem in H. congruence.
Qed.

Lemma split_sign q : exists s neg t, signed s neg /\ q = s ++ t /\ (s = [] -> ~ starts_with ["+"; "-"]%char t).
Proof.
  destruct q as [|c t].
  - exists [], false, []. split; [constructor|]. split; [reflexivity|]. intros _ (x & r & E & _). discriminate.
  - destruct (Ascii.eqb_spec c "+"); [subst; exists ["+"%char], false, t; split; [constructor|]; split; [reflexivity|discriminate]|].
    destruct (Ascii.eqb_spec c "-"); [subst; exists ["-"%char], true, t; split; [constructor|]; split; [reflexivity|discriminate]|].
    exists [], false, (c :: t). split; [constructor|]. split; [reflexivity|]. intros _ (x & r & E & H). injection E as <- _.
    destruct H as [<-|[<-|[]]]; congruence.
Qed.

Lemma reads_something w : exists v ok r, reads w v ok r.
Proof.
  destruct (split_blanks w) as (b & q & Hb & -> & Nb).
  destruct q as [|c0 q0]; [exists None, false, []; rewrite app_nil_r; apply reads_blank; exact Hb|].
  destruct (split_sign (c0 :: q0)) as (s & neg & t & Hs & E & Ns).
  destruct (split_prefixes (List.length t) t (le_n _)) as (p & u & Hp & E2 & Nu).
  destruct (take_hex u) as [ds r] eqn:T. destruct (take_numeral _ _ _ T) as (w & E3 & Nr & Hw & Fw).
  rewrite E. subst t. destruct w as [|a w].
  - cbn in E3. subst u. do 3 eexists. apply (reads_nothing b s neg p r); try assumption.
    + rewrite <- E. discriminate.
    + intros -> ->. cbn in E. subst r. intros (c & z & E4 & H). injection E4 as <- <-. rewrite in_app_iff in H. destruct H as [H|H].
      * apply Nb. exists c0, q0. auto.
      * apply Ns; [reflexivity|]. exists c0, q0. auto.
  - destruct (hex_numeral (a :: w) Fw) as (v & Hv); [discriminate|]. subst u. do 3 eexists.
    apply (reads_number b s neg p (a :: w) v r); try assumption.
    intros [Ew (x & z & Ex & Hx)]. apply Nu. exists x, z. rewrite Ew, Ex. split; [exact Hx|reflexivity].
Qed.

Lemma read_groups h w1 w2 tail c p i o1 o2 ok r1 r2 rest :
  ~ In ":"%char w1 -> ~ In ":"%char w2 -> reads w1 c o1 r1 -> reads w2 p o2 r2 -> reads tail i ok rest ->
  read_address h (istringstream (w1 ++ [":"%char] ++ w2 ++ [":"%char] ++ tail)) =
    (match c, p, i with Some c, Some p, Some i => Ok (sat_make h c p i) | _, _, _ => UB end, stream_after rest ok).
Proof.
  intros N1 N2 R1 R2 R3. unfold read_address. unfold getline at 1. unfold good at 1. unfold istringstream at 1 2 3.
  cbn [eofb failb negb andb buf app].
  assert (D : forall w, ~ In ":"%char w -> forall a, In a w -> Ascii.eqb a colon = false).
  { intros w Nw a Ha. destruct (Ascii.eqb_spec a colon); [subst; contradiction|reflexivity]. }
  change ":"%char with colon. rewrite until_delim_app by (apply D; exact N1).
  rewrite (reads_extract _ _ _ _ R1).
  unfold getline, good; cbn [eofb failb negb andb buf].
  rewrite until_delim_app by (apply D; exact N2).
  rewrite (reads_extract _ _ _ _ R2). cbn [fst].
  pose proof (reads_extract _ _ _ _ R3) as X. unfold istringstream in X. rewrite X. reflexivity.
Qed.

Lemma until_none t x : until_delim colon t = (x, None) -> count_occ ascii_dec t colon = 0%nat.
Proof.
  revert x. induction t as [|a t IH]; intros x H; [reflexivity|]. cbn [until_delim] in H.
  destruct (Ascii.eqb_spec a colon); [discriminate|]. destruct (until_delim colon t) as [y z] eqn:E. injection H as _ ->.
  rewrite count_occ_cons_neq by assumption. eapply IH. reflexivity.
Qed.

Lemma read_few_colons h t : (count_occ ascii_dec t ":"%char < 2)%nat ->
  fst (read_address h (istringstream t)) = UB /\ failb (snd (read_address h (istringstream t))) = true.
Proof.
  intros Hc. assert (M : forall a b : option Z, match a, b, @None Z with Some c, Some p, Some i => Ok (sat_make h c p i)
    | _, _, _ => UB end = UB) by (intros [|] [|]; reflexivity).
  unfold read_address. change (istringstream t) with (mkIs t false false).
  unfold getline, good; cbn [eofb failb negb andb buf].
  destruct (until_delim colon t) as [x1 [r1|]] eqn:E1; cbn [eofb failb negb andb buf].
  - destruct (until_delim colon r1) as [x2 [r2|]] eqn:E2; cbn [eofb failb negb andb buf].
    + exfalso. apply until_delim_split in E1. apply until_delim_split in E2. subst.
      rewrite count_occ_app in Hc. rewrite count_occ_cons_eq in Hc by reflexivity. rewrite count_occ_app in Hc.
      rewrite count_occ_cons_eq in Hc by reflexivity. lia.
    + unfold extract_hex at 3 6, good; cbn [eofb failb negb andb buf fst snd].
      split; [apply M|reflexivity].
  - unfold extract_hex at 3 6, good; cbn [eofb failb negb andb buf fst snd].
    split; [apply M|reflexivity].
Qed.
