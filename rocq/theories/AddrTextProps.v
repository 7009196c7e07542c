(** C03, C04. *)
From Coq Require Import Ascii String ZArith List Lia Bool.
From Verif Require Import Base SatAddrModel SatAddrProofs AddrTextModel AddrTextSpec AddrTextProofs.
Import ListNotations.
Open Scope Z_scope.
Open Scope list_scope.

(** C03 *)
Theorem address_text_shape : forall h c p i, is_u16 c -> is_u16 p -> is_u16 i ->
  print_address h (sat_make h c p i) = address_text c p i /\
  List.length (print_address h (sat_make h c p i)) = 14%nat.
Proof.
  intros. rewrite print_address_text by assumption. split; reflexivity.
Qed.
Print Assumptions address_text_shape.

Theorem address_text_round_trip : forall h c p i rest,
  is_u16 c -> is_u16 p -> is_u16 i -> ends_numeral rest ->
  exists a s,
    read_address h (istringstream (print_address h (sat_make h c p i) ++ rest)) = (Ok a, s) /\
    get_constellation h a = c /\ get_plane h a = p /\ get_index h a = i /\
    failb s = false /\ buf s = rest.
Proof.
  intros h c p i rest Hc Hp Hi He. rewrite read_print by assumption.
  do 2 eexists. split; [reflexivity|].
  destruct (getters_make h c p i Hc Hp Hi) as (? & ? & ?). simpl; auto.
Qed.
Print Assumptions address_text_round_trip.

Theorem address_text_injective : forall h c p i c' p' i',
  is_u16 c -> is_u16 p -> is_u16 i -> is_u16 c' -> is_u16 p' -> is_u16 i' ->
  print_address h (sat_make h c p i) = print_address h (sat_make h c' p' i') ->
  (c, p, i) = (c', p', i').
Proof.
  intros h c p i c' p' i' Hc Hp Hi Hc' Hp' Hi' E.
  destruct (address_text_round_trip h c p i [] Hc Hp Hi I) as (a & s & R & A1 & A2 & A3 & _).
  destruct (address_text_round_trip h c' p' i' [] Hc' Hp' Hi' I) as (a' & s' & R' & B1 & B2 & B3 & _).
  rewrite E in R. rewrite R in R'. inversion R'; subst. reflexivity.
Qed.
Print Assumptions address_text_injective.

Example text_case :
  print_address LittleEndian (sat_make LittleEndian 61455 57630 53805) = txt "f00f:e11e:d22d" /\
  print_address LittleEndian (sat_make LittleEndian 0 10 255) = txt "0000:000a:00ff" /\
  read_address LittleEndian (istringstream (txt "0000:000a:00ff]")) =
    (Ok (sat_make LittleEndian 0 10 255), mkIs (txt "]") false false) /\
  ends_numeral (txt "]").
Proof.
  split; [reflexivity | split; [reflexivity | split; [reflexivity |]]].
  simpl. repeat split; try discriminate; intros H;
  repeat (destruct H as [H|H]; [discriminate|]); exact H.
Qed.

(** C04.  The full statement fails in two ways: text that is no address is accepted with the stream
    still good, and short text makes the operator read a variable that was never written. *)
Definition malformed_text_reported : Prop := forall h t,
  (forall w1 w2 w3 c p i rest, numeral w1 c -> numeral w2 p -> numeral w3 i ->
     t <> w1 ++ [":"%char] ++ w2 ++ [":"%char] ++ w3 ++ rest) ->
  fst (read_address h (istringstream t)) <> UB /\
  failb (snd (read_address h (istringstream t))) = true.

Lemma numeral_of_z : forall w v, numeral w v -> In "z"%char w -> False.
Proof.
  assert (A : forall d, 0 <= d < 16 ->
    Ascii.eqb "z" (digit d) || Ascii.eqb "z" (nth (Z.to_nat d) upper_digits "?"%char) = false).
  { intros d Hd.
    apply negb_true_iff.
    apply (forall16 (fun d => negb (Ascii.eqb "z" (digit d) ||
       Ascii.eqb "z" (nth (Z.to_nat d) upper_digits "?"%char)))); [vm_compute; reflexivity | exact Hd]. }
  assert (B : forall d c, 0 <= d < 16 ->
    c = digit d \/ c = nth (Z.to_nat d) upper_digits "?"%char -> "z"%char <> c).
  { intros d c Hd Hc E. specialize (A d Hd). apply orb_false_iff in A. destruct A as [A1 A2].
    destruct Hc; subst c; rewrite E in *; rewrite Ascii.eqb_refl in *; discriminate. }
  induction 1 as [d c Hd Hc|w v d c Hw IH Hd Hc]; intros H.
  - destruct H as [H|[]]. eapply B; eauto.
  - apply in_app_or in H. destruct H as [H|[H|[]]]; [auto|]. eapply B; eauto.
Qed.

Theorem malformed_text_silently_accepted_refuted : ~ malformed_text_reported.
Proof.
  intros H. specialize (H LittleEndian (txt "zzzz:0001:0002")).
  destruct H as [_ H].
  - intros w1 w2 w3 c p i rest N1 N2 N3 E.
    destruct (numeral_nonempty _ _ N1) as (a & r & ->). cbn in E. injection E as <- E.
    apply (numeral_of_z _ _ N1). left. reflexivity.
  - vm_compute in H. discriminate.
Qed.
Print Assumptions malformed_text_silently_accepted_refuted.

Theorem short_text_reads_indeterminate_refuted :
  exists t, fst (read_address LittleEndian (istringstream t)) = UB.
Proof. exists (txt "0001:0002"). vm_compute. reflexivity. Qed.
Print Assumptions short_text_reads_indeterminate_refuted.

(** The indeterminate value can even be read with the stream reporting success. *)
Theorem silent_indeterminate_refuted :
  exists t, fst (read_address LittleEndian (istringstream t)) = UB /\
            failb (snd (read_address LittleEndian (istringstream t))) = false.
Proof. exists (txt ":0002:0003"). vm_compute. split; reflexivity. Qed.
Print Assumptions silent_indeterminate_refuted.

(** What does hold: well-formed text of any numeral length and case is read correctly, and a read
    that leaves the stream good had two colons.  Missing: detection of malformed first and second
    groups. *)
Theorem malformed_text_partial : forall h,
  (forall w1 w2 w3 c p i rest,
    numeral w1 c -> numeral w2 p -> numeral w3 i ->
    c < 65536 -> p < 65536 -> i < 65536 -> ends_numeral rest ->
    fst (read_address h (istringstream (w1 ++ [":"%char] ++ w2 ++ [":"%char] ++ w3 ++ rest)))
      = Ok (sat_make h c p i)) /\
  (forall t, failb (snd (read_address h (istringstream t))) = false ->
    exists w1 w2 tail, t = w1 ++ [":"%char] ++ w2 ++ [":"%char] ++ tail /\
      ~ In ":"%char w1 /\ ~ In ":"%char w2).
Proof.
  intros h. split.
  - intros. pose proof (read_wellformed h w1 w2 w3 c p i rest H H0 H1 H2 H3 H4 H5) as R.
    unfold colon in R. rewrite R. reflexivity.
  - intros t Ht. apply (read_ok_two_colons h t Ht).
Qed.
Print Assumptions malformed_text_partial.

Example short_numerals : numeral (txt "F") 15 /\ numeral (txt "1a") 26 /\
  fst (read_address BigEndian (istringstream (txt "F:1a:0"))) = Ok (sat_make BigEndian 15 26 0).
Proof.
  split; [| split].
  - apply (numeral_one 15); [lia | right; reflexivity].
  - apply (numeral_more (txt "1") 1 10); [apply (numeral_one 1); [lia | left; reflexivity] | lia | left; reflexivity].
  - reflexivity.
Qed.

(** Exactly what is read from any text: what each of the three groups is read as decides, and the stream reports only what
    was wrong with the last. *)
Theorem address_text_exact : forall h,
  (forall w1 w2 tail c p i o1 o2 ok r1 r2 rest, ~ In ":"%char w1 -> ~ In ":"%char w2 ->
    reads w1 c o1 r1 -> reads w2 p o2 r2 -> reads tail i ok rest ->
    let (a, s) := read_address h (istringstream (w1 ++ [":"%char] ++ w2 ++ [":"%char] ++ tail)) in
    a = match c, p, i with Some c, Some p, Some i => Ok (sat_make h c p i) | _, _, _ => UB end /\
    failb s = negb ok /\ buf s = rest) /\
  (forall t, (count_occ ascii_dec t ":"%char < 2)%nat ->
    fst (read_address h (istringstream t)) = UB /\ failb (snd (read_address h (istringstream t))) = true) /\
  (forall w, exists v ok rest, reads w v ok rest /\
    forall v' ok' rest', reads w v' ok' rest' -> (v', ok', rest') = (v, ok, rest)).
Proof.
  intros h. split; [|split].
  - intros. rewrite (read_groups h w1 w2 tail c p i o1 o2 ok r1 r2 rest) by assumption. repeat split.
  - intros t. apply read_few_colons.
  - intros w. destruct (reads_something w) as (v & ok & rest & R). exists v, ok, rest. split; [exact R|].
    intros v' ok' rest' R'. apply reads_extract in R. apply reads_extract in R'. rewrite R in R'. unfold stream_after in R'.
    injection R' as -> -> _ E. destruct ok, ok'; try discriminate; reflexivity.
Qed.
Print Assumptions address_text_exact.

Example address_exact_case :
  let cr := ascii_of_nat 13 in
  fst (read_address LittleEndian (istringstream (cr :: txt "-2:0x0X1f:99999 "))) = Ok (sat_make LittleEndian 65534 31 65535) /\
  failb (snd (read_address LittleEndian (istringstream (cr :: txt "-2:0x0X1f:99999 ")))) = true /\
  reads (cr :: txt "-2") (Some 65534) true [] /\ reads (txt "x1") (Some 0) false (txt "x1") /\
  reads [cr] None false [].
Proof.
  assert (B : In (ascii_of_nat 13) blanks) by (cbn; auto 8).
  split; [vm_compute; reflexivity|]. split; [vm_compute; reflexivity|]. split; [|split].
  - apply (reads_number [ascii_of_nat 13] ["-"%char] true [] ["2"%char] 2 []).
    + constructor; [exact B|constructor].
    + constructor.
    + constructor.
    + apply (numeral_one 2); [lia|left; reflexivity].
    + intros (c & r & E & _). discriminate.
    + intros [E _]. discriminate.
  - apply (reads_nothing [] [] false [] (txt "x1")).
    + constructor.
    + constructor.
    + constructor.
    + discriminate.
    + intros (c & r & E & H). injection E as <- _. cbn in H. intuition discriminate.
    + intros _ _ (c & r & E & H). injection E as <- _. cbn in H. intuition discriminate.
  - apply reads_blank. constructor; [exact B|constructor].
Qed.
