(** Lemmas on the URIs of faces. *)
From Coq Require Import Ascii String ZArith QArith List Lia Bool Arith.
From Verif Require Import DeviceModel Base SatAddrModel AddrTextModel AddrTextSpec AddrTextProofs LaunchModel IslModel IslSpec IslProofs SetupModel SetupSpec SetupProofs
  UriModel UriSpec.
Import ListNotations.
Open Scope nat_scope.

(** ** Text of addresses *)

Lemma two_digits : forall x, (0 <= x < 256)%Z -> setw 2 "0" (hex_min 2 x) = [digit (x / 16); digit (x mod 16)].
Proof.
  intros x Hx.
  assert (A : forallb (fun i => if list_eq_dec ascii_dec (setw 2 "0" (hex_min 2 (Z.of_nat i))) [digit (Z.of_nat i / 16); digit (Z.of_nat i mod 16)] then true else false)
                (seq 0 256) = true) by (vm_compute; reflexivity).
  rewrite forallb_forall in A. specialize (A (Z.to_nat x)). rewrite Z2Nat.id in A by lia.
  assert (I : In (Z.to_nat x) (seq 0 256)) by (apply in_seq; lia). specialize (A I). cbv beta in A.
  destruct (list_eq_dec _ _ _) as [E|]; [exact E|discriminate A].
Qed.

Lemma byte_digits : forall m j, (0 <= j)%Z ->
  setw 2 "0" (hex_min 2 (Z.shiftr m (8 * j) mod 256)) = pair_at m j.
Proof.
  intros m j Hj. rewrite two_digits by (apply Z.mod_pos_bound; lia). unfold pair_at, hex_at.
  rewrite Z.shiftr_div_pow2 by lia.
  replace (2 ^ (8 * j))%Z with (16 ^ (2 * j))%Z by (change 16%Z with (2 ^ 4)%Z; rewrite <- Z.pow_mul_r by lia; f_equal; lia).
  rewrite (Z.pow_add_r 16 (2 * j) 1) by lia. change (16 ^ 1)%Z with 16%Z. rewrite <- Z.div_div by lia.
  set (y := (m / 16 ^ (2 * j))%Z). f_equal; [f_equal|f_equal; f_equal].
  - change 256%Z with (16 * 16)%Z. rewrite Z.rem_mul_r by lia. rewrite Z.mul_comm, Z.div_add by lia.
    rewrite Z.div_small by (apply Z.mod_pos_bound; lia). reflexivity.
  - symmetry. apply Znumtheory.Zmod_div_mod; [lia|lia|exists 16%Z; reflexivity].
Qed.

Lemma mac_text_form : forall m, mac_text m = mac_form m.
Proof.
  intros m. unfold mac_text, mac_byte, mac_form. cbn [seq flat_map Z.of_nat]. rewrite !byte_digits by (cbn; lia).
  cbn -[pair_at]. rewrite <- !app_assoc. reflexivity.
Qed.

Lemma digit_inj : forall a b, (0 <= a < 16)%Z -> (0 <= b < 16)%Z -> digit a = digit b -> a = b.
Proof.
  intros a b Ha Hb E. destruct (digit_facts a Ha) as (_ & Va & _). destruct (digit_facts b Hb) as (_ & Vb & _). rewrite E in Va. congruence.
Qed.

Lemma next_digit : forall m i, (0 <= i)%Z -> (m mod 16 ^ (i + 1) = m mod 16 ^ i + 16 ^ i * (m / 16 ^ i mod 16))%Z.
Proof. intros m i Hi. rewrite Z.pow_add_r by lia. change (16 ^ 1)%Z with 16%Z. apply Z.rem_mul_r; [pose proof (Z.pow_pos_nonneg 16 i); lia|lia]. Qed.

Lemma mac_form_eq : forall m n, mac_form m = mac_form n <-> (m mod 2 ^ 48 = n mod 2 ^ 48)%Z.
Proof.
  assert (D : forall m n i, hex_at m i = hex_at n i -> (m / 16 ^ i mod 16 = n / 16 ^ i mod 16)%Z).
  { intros m n i E. apply digit_inj; [apply Z.mod_pos_bound; lia|apply Z.mod_pos_bound; lia|exact E]. }
  assert (U : forall m n i, (0 <= i)%Z -> (m mod 16 ^ i = n mod 16 ^ i)%Z -> hex_at m i = hex_at n i -> (m mod 16 ^ (i + 1) = n mod 16 ^ (i + 1))%Z).
  { intros m n i Hi E H. rewrite !next_digit by lia. rewrite E, (D _ _ _ H). reflexivity. }
  intros m n. split.
  - intros E. injection E. cbn [Z.mul Z.add Pos.mul Pos.add Pos.succ Pos.add_carry].
    intros e0 e1 e2 e3 e4 e5 e6 e7 e8 e9 e10 e11. change (2 ^ 48)%Z with (16 ^ (11 + 1))%Z.
    assert (E0 : (m mod 16 ^ 0 = n mod 16 ^ 0)%Z) by (rewrite !Z.mod_1_r; reflexivity).
    pose proof (U m n 0%Z ltac:(lia) E0 e0) as E1. pose proof (U m n 1%Z ltac:(lia) E1 e1) as E2.
    pose proof (U m n 2%Z ltac:(lia) E2 e2) as E3. pose proof (U m n 3%Z ltac:(lia) E3 e3) as E4.
    pose proof (U m n 4%Z ltac:(lia) E4 e4) as E5. pose proof (U m n 5%Z ltac:(lia) E5 e5) as E6.
    pose proof (U m n 6%Z ltac:(lia) E6 e6) as E7. pose proof (U m n 7%Z ltac:(lia) E7 e7) as E8.
    pose proof (U m n 8%Z ltac:(lia) E8 e8) as E9. pose proof (U m n 9%Z ltac:(lia) E9 e9) as E10.
    pose proof (U m n 10%Z ltac:(lia) E10 e10) as E11. exact (U m n 11%Z ltac:(lia) E11 e11).
  - intros E.
    assert (A : forall x i, (0 <= i < 12)%Z -> (x / 16 ^ i mod 16 = x mod 2 ^ 48 / 16 ^ i mod 16)%Z).
    { intros x i Hi. pose proof (Z.pow_pos_nonneg 16 i ltac:(lia) ltac:(lia)) as P.
      change (2 ^ 48)%Z with (16 ^ 12)%Z. replace 12%Z with (i + (1 + (11 - i)))%Z by lia. rewrite Z.pow_add_r by lia.
      rewrite Z.rem_mul_r by (pose proof (Z.pow_pos_nonneg 16 (1 + (11 - i)) ltac:(lia) ltac:(lia)); lia).
      rewrite (Z.mul_comm (16 ^ i)), Z.div_add by lia. rewrite (Z.div_small (x mod 16 ^ i)) by (apply Z.mod_pos_bound; lia). rewrite Z.add_0_l.
      rewrite Z.pow_add_r by lia. change (16 ^ 1)%Z with 16%Z.
      rewrite Z.rem_mul_r by (pose proof (Z.pow_pos_nonneg 16 (11 - i) ltac:(lia) ltac:(lia)); lia).
      rewrite (Z.mul_comm 16 (_ mod _)), Z.mod_add, Z.mod_mod by lia. reflexivity. }
    unfold mac_form, pair_at, hex_at. rewrite !(A m), !(A n) by lia. rewrite E. reflexivity.
Qed.

Lemma mac_form_mod : forall m, mac_form (m mod 2 ^ 48) = mac_form m.
Proof. intros. apply mac_form_eq. apply Z.mod_mod. lia. Qed.

Lemma uri_of_eq : forall u v, (match u with Named m => 0 <= m < 2 ^ 48 | Plain => True end)%Z -> (match v with Named m => 0 <= m < 2 ^ 48 | Plain => True end)%Z ->
  uri_of u = uri_of v -> u = v.
Proof.
  intros [|m] [|n] Hu Hv E; [reflexivity|exfalso|exfalso|f_equal].
  - apply (f_equal (@List.length ascii)) in E. vm_compute in E. discriminate E.
  - apply (f_equal (@List.length ascii)) in E. vm_compute in E. discriminate E.
  - unfold uri_of in E. apply app_inv_head, app_inv_tail in E. apply mac_form_eq in E. rewrite !Z.mod_small in E by assumption. exact E.
Qed.

(** ** Ends of links *)

Lemma attached_pairs : forall prs c k from,
  attached c from (install_pairs k prs) = if (k <=? c) && (c <? k + length prs) then [from + 2 * (c - k); from + 2 * (c - k) + 1] else [].
Proof.
  induction prs as [|p r IH]; intros c k from.
  - cbn [install_pairs attached length]. destruct (Nat.leb_spec k c); destruct (Nat.ltb_spec c (k + 0)); cbn [andb]; try reflexivity. lia.
  - cbn [install_pairs install_pair attached app isl_chan length]. rewrite IH.
    destruct (Nat.eqb_spec k c) as [->|Ne].
    + cbn [app]. destruct (Nat.leb_spec (S c) c) as [L|L]; [lia|]. cbn [andb]. destruct (Nat.leb_spec c c); [|lia].
      destruct (Nat.ltb_spec c (c + S (length r))); [|lia]. cbn [andb]. replace (c - c) with 0 by lia. f_equal; [lia|f_equal; lia].
    + cbn [app]. destruct (Nat.leb_spec (S k) c); destruct (Nat.leb_spec k c); try lia; cbn [andb]; [|reflexivity].
      destruct (Nat.ltb_spec c (S k + length r)); destruct (Nat.ltb_spec c (k + S (length r))); try lia; [|reflexivity].
      f_equal; [lia|f_equal; lia].
Qed.

Lemma pairs_nth : forall prs k from, nth_error (install_pairs from prs) k =
  option_map (fun p => mkIsl (if Nat.even k then fst p else snd p) (from + Nat.div2 k)) (nth_error prs (Nat.div2 k)).
Proof.
  induction prs as [|p r IH]; intros k from.
  - cbn [install_pairs]. destruct k; [reflexivity|]. destruct (Nat.div2 (S k)); reflexivity.
  - destruct k as [|[|k]]; cbn [install_pairs install_pair app nth_error Nat.div2 Nat.even option_map].
    + rewrite Nat.add_0_r. reflexivity.
    + rewrite Nat.add_0_r. reflexivity.
    + rewrite IH. destruct (nth_error r (Nat.div2 k)); cbn; [|reflexivity]. rewrite Nat.add_succ_r. reflexivity.
Qed.

Lemma halves : forall k, k = 2 * Nat.div2 k + (if Nat.even k then 0 else 1).
Proof.
  intros k. rewrite (Nat.div2_odd k) at 1. rewrite <- Nat.negb_even. destruct (Nat.even k); reflexivity.
Qed.

(** The remote end that the helper finds is the other end of the link. *)
Lemma remote_other : forall prs k, (forall x y, In (x, y) prs -> x <> y) -> k < 2 * length prs ->
  isl_remote (install_pairs 0 prs) k = Ok (other_end k) /\ other_end k < 2 * length prs.
Proof.
  intros prs k Ne Lk. pose proof (halves k) as H.
  assert (Lh : Nat.div2 k < length prs) by (destruct (Nat.even k); lia).
  destruct (nth_error prs (Nat.div2 k)) as [[x y]|] eqn:E; [|apply nth_error_None in E; lia].
  pose proof (Ne x y (nth_error_In _ _ E)) as Nxy.
  assert (At : attached (Nat.div2 k) 0 (install_pairs 0 prs) = [2 * Nat.div2 k; 2 * Nat.div2 k + 1]).
  { rewrite attached_pairs. cbn [Nat.leb]. destruct (Nat.ltb_spec (Nat.div2 k) (0 + length prs)); [|lia]. cbn [andb]. rewrite Nat.sub_0_r. reflexivity. }
  unfold isl_remote. rewrite pairs_nth, E. cbn [option_map isl_chan isl_node Nat.add]. unfold get_device. rewrite At. cbn [nth_error rbind].
  rewrite pairs_nth. replace (Nat.div2 (2 * Nat.div2 k)) with (Nat.div2 k) by (symmetry; apply Nat.div2_double). rewrite E. cbn [option_map isl_node].
  assert (Ev : Nat.even (2 * Nat.div2 k) = true) by (rewrite Nat.even_mul; reflexivity). rewrite Ev. cbn [fst snd]. unfold other_end.
  destruct (Nat.even k).
  - rewrite Nat.eqb_refl. split; [f_equal; lia|lia].
  - destruct (Nat.eqb_spec x y); [contradiction|]. split; [f_equal; lia|lia].
Qed.

(** ** Stations *)

Lemma rank_le : forall B (f : B -> bool) l i j, i <= j -> rank f i l <= rank f j l.
Proof.
  intros B f l i j H. unfold rank. revert i j H. induction l as [|x l IH]; intros i j H; [rewrite !firstn_nil; reflexivity|].
  destruct i as [|i]; [cbn; lia|]. destruct j as [|j]; [lia|]. cbn [firstn filter]. specialize (IH i j ltac:(lia)). destruct (f x); cbn [length]; lia.
Qed.

Lemma rank_next : forall B (f : B -> bool) l i x, nth_error l i = Some x -> f x = true -> rank f (S i) l = S (rank f i l).
Proof.
  intros B f l. unfold rank. induction l as [|y l IH]; intros i x H F; [destruct i; discriminate|].
  destruct i as [|i]; cbn [nth_error] in H.
  - injection H as ->. cbn. rewrite F. reflexivity.
  - cbn [firstn filter]. specialize (IH i x H F). cbn [firstn] in IH. destruct (f y); cbn [length]; rewrite IH; reflexivity.
Qed.

Lemma rank_inj : forall B (f : B -> bool) l i j x y, nth_error l i = Some x -> nth_error l j = Some y -> f x = true -> f y = true ->
  rank f i l = rank f j l -> i = j.
Proof.
  intros B f l i j x y Hi Hj Fx Fy E. destruct (lt_eq_lt_dec i j) as [[L|L]|L]; [|exact L|].
  - pose proof (rank_next _ f l i x Hi Fx). pose proof (rank_le _ f l (S i) j ltac:(lia)). lia.
  - pose proof (rank_next _ f l j y Hj Fy). pose proof (rank_le _ f l (S j) i ltac:(lia)). lia.
Qed.

(** A node becomes a satellite once. *)
Lemma launched_once : forall pos cs seen i j c c', nth_error (marks pos seen cs) i = Some (true, c) -> nth_error (marks pos seen cs) j = Some (true, c') ->
  cl_node c = cl_node c' -> i = j.
Proof.
  intros pos. induction cs as [|x cs IH]; intros seen i j c c' Hi Hj E; [destruct i; discriminate|]. cbn [marks] in Hi, Hj.
  assert (N : forall k y seen, nth_error (marks pos seen cs) k = Some (true, y) -> In (cl_node y) seen -> False).
  { clear. induction cs as [|x cs IH]; intros k y seen H I; [destruct k; discriminate|]. cbn [marks] in H. destruct k as [|k]; cbn [nth_error] in H.
    - injection H as E <-. apply andb_true_iff in E. destruct E as [_ E]. apply negb_true_iff in E.
      assert (X : existsb (Nat.eqb (cl_node x)) seen = true) by (apply existsb_exists; exists (cl_node x); split; [exact I|apply Nat.eqb_refl]). congruence.
    - apply (IH k y (cl_node x :: seen) H). right. exact I. }
  destruct i as [|i]; destruct j as [|j]; cbn [nth_error] in Hi, Hj.
  - reflexivity.
  - exfalso. injection Hi as _ ->. apply (N _ _ _ Hj). left. exact E.
  - exfalso. injection Hj as _ ->. apply (N _ _ _ Hi). left. symmetry. exact E.
  - f_equal. exact (IH _ _ _ _ _ Hi Hj E).
Qed.
