(** Theorems on the URIs of faces. *)
From Coq Require Import Ascii String ZArith QArith List Lia Bool Arith.
From Verif Require Import DeviceModel Base SatAddrModel AddrTextModel AddrTextSpec AddrTextProofs ConstellationModel LaunchModel IslModel IslSpec IslProofs
  SetupModel SetupSpec SetupProofs SetupRun SetupProps UriModel UriSpec UriProofs.
Import ListNotations.
Open Scope nat_scope.

Section Script.
Variable debug : bool.
Variable ho : host.
Variable plans : nat -> plan.
Hypothesis plans_ok : proper plans.
Variable b : before.
Variable first : Z.
Variable t0 : nat.
Variable l : list sop.
Hypothesis l_holds : holds 0 l.
Variable w : world Q.
Hypothesis w_ok : setup rational debug ho (start plans b first t0) l = Ok w.

Let cs := calls 0 t0 l.
Let ms := marks (b_pos b) [] cs.

Lemma links_pairs : exists prs, sw_links w = install_pairs 0 prs /\ forall x y, In (x, y) prs -> x <> y.
Proof.
  destruct (script_links debug ho plans plans_ok b first t0 l l_holds w w_ok) as (nets & F & L & _).
  exists (concat nets). split; [exact L|]. intros x y H. apply in_concat in H. destruct H as (net & Hn & Hx).
  clear L. induction F as [|a n q r G F IH]; [contradiction|]. destruct Hn as [->|Hn]; [|apply IH; exact Hn].
  destruct G as [_ G]. apply (G x y Hx).
Qed.

(** The face of an end of a link is made for the other end: the same channel, another node. *)
Theorem remote_end : forall k, k < length (sw_links w) ->
  isl_remote (sw_links w) k = Ok (other_end k) /\
  exists e e', nth_error (sw_links w) k = Some e /\ nth_error (sw_links w) (other_end k) = Some e' /\
    isl_chan e' = isl_chan e /\ isl_node e' <> isl_node e.
Proof.
  intros k Lk. destruct links_pairs as (prs & E & Ne). rewrite E in *. rewrite install_pairs_length in Lk.
  destruct (remote_other prs k Ne Lk) as [R Lo]. split; [exact R|].
  pose proof (halves k) as H. rewrite !pairs_nth.
  assert (Hd : Nat.div2 (other_end k) = Nat.div2 k /\ Nat.even (other_end k) = negb (Nat.even k)).
  { unfold other_end. destruct (Nat.even k) eqn:Ev; set (h := Nat.div2 k) in *.
    - replace (k + 1) with (S (2 * h)) by lia. split; [apply Nat.div2_succ_double|]. rewrite Nat.even_succ, <- Nat.negb_even, Nat.even_mul. reflexivity.
    - replace (k - 1) with (2 * h) by lia. split; [apply Nat.div2_double|]. rewrite Nat.even_mul. reflexivity. }
  destruct Hd as [-> ->].
  destruct (nth_error prs (Nat.div2 k)) as [[x y]|] eqn:En; [|apply nth_error_None in En; destruct (Nat.even k); lia].
  pose proof (Ne x y (nth_error_In _ _ En)) as Nxy. cbn [option_map]. do 2 eexists. split; [reflexivity|]. split; [reflexivity|]. cbn [isl_chan isl_node fst snd].
  split; [reflexivity|]. destruct (Nat.even k); cbn [negb]; congruence.
Qed.

(** Which faces are made, and with which URIs. *)
Theorem face_uris_are : forall d,
  face_uris w d = match sort_of ms (length (sw_links w)) d with
                  | Some s => Ok (uri_of (name_of first s), remote_of s)
                  | None => UB
                  end.
Proof.
  destruct (script_devices debug ho plans plans_ok b first t0 l l_holds w w_ok) as (Hl & Hd & _). fold cs in Hl, Hd. fold ms in Hd.
  assert (Lm : length ms = length cs) by (unfold ms; apply marks_length).
  intros [k|k]; unfold face_uris, sort_of.
  - destruct (nth_error ms k) as [[sat c]|] eqn:E.
    + rewrite (Hd k _ E). unfold device_of, gs_address, construct_face_uri. cbn [dv_kind_of fst snd]. destruct sat; cbn [name_of uri_of remote_of].
      * rewrite app_nil_r. reflexivity.
      * rewrite mac_form_mod, mac_text_form. reflexivity.
    + assert (N : nth_error (sw_devs w) k = None) by (apply nth_error_None; apply nth_error_None in E; lia). rewrite N. reflexivity.
  - destruct (Nat.ltb_spec k (length (sw_links w))) as [L|L].
    + destruct (remote_end k L) as (R & e & e' & _ & E' & _). rewrite R. cbn [rbind]. rewrite E'. reflexivity.
    + unfold isl_remote. rewrite (proj2 (nth_error_None _ _) L). reflexivity.
Qed.

(** Two faces have the same local URI just when their names are the same. *)
Lemma name_range : forall s, (match name_of first s with Named m => 0 <= m < 2 ^ 48 | Plain => True end)%Z.
Proof. intros [|i|]; cbn [name_of]; [exact Logic.I|apply Z.mod_pos_bound; lia|unfold all_ones; lia]. Qed.

Theorem same_local : forall d d' lo lo' re re', face_uris w d = Ok (lo, re) -> face_uris w d' = Ok (lo', re') ->
  exists s s', sort_of ms (length (sw_links w)) d = Some s /\ sort_of ms (length (sw_links w)) d' = Some s' /\
    (lo = lo' <-> name_of first s = name_of first s').
Proof.
  intros d d' lo lo' re re' F F'. rewrite face_uris_are in F, F'.
  destruct (sort_of ms _ d) as [s|]; [|discriminate F]. destruct (sort_of ms _ d') as [s'|]; [|discriminate F'].
  injection F as <- <-. injection F' as <- <-. exists s, s'. split; [reflexivity|]. split; [reflexivity|].
  split; [intros E; apply uri_of_eq; [apply name_range|apply name_range|exact E]|intros ->; reflexivity].
Qed.

(** As long as neither the addresses run out nor one is the broadcast address, only satellites and only ends of links share
    their local URI. *)
Hypothesis first_ok : (0 <= first)%Z.
Hypothesis enough : (first + Z.of_nat (length (filter is_ground ms)) <= all_ones)%Z.

Lemma name_eq : forall d d' s s', sort_of ms (length (sw_links w)) d = Some s -> sort_of ms (length (sw_links w)) d' = Some s' ->
  name_of first s = name_of first s' -> d = d' \/ (s = OfSat /\ s' = OfSat) \/ (s = OfLink /\ s' = OfLink).
Proof.
  assert (St : forall d i, sort_of ms (length (sw_links w)) d = Some (OfStation i) ->
     exists k c, d = RGs k /\ nth_error ms k = Some (false, c) /\ i = rank is_ground k ms /\ (0 <= first + Z.of_nat i < all_ones)%Z).
  { intros [k|k] i H; unfold sort_of in H; [|destruct (k <? _); discriminate H].
    destruct (nth_error ms k) as [[[|] c]|] eqn:E; [discriminate H| |discriminate H]. cbn [fst] in H. injection H as <-.
    exists k, c. split; [reflexivity|]. split; [exact E|]. split; [reflexivity|].
    pose proof (rank_lt _ is_ground ms k _ E eq_refl). lia. }
  unfold all_ones in St.
  intros d d' s s' H H' E. destruct s as [|i|]; destruct s' as [|i'|]; cbn [name_of] in E; try discriminate E; auto.
  - left. destruct (St _ _ H) as (k & c & -> & K & -> & R). destruct (St _ _ H') as (k' & c' & -> & K' & -> & R').
    injection E as E. rewrite !Z.mod_small in E by lia. f_equal. apply (rank_inj _ is_ground ms k k' _ _ K K' eq_refl eq_refl). lia.
  - exfalso. destruct (St _ _ H) as (k & c & -> & K & -> & R). injection E as E. unfold all_ones in E. rewrite Z.mod_small in E by lia. lia.
  - exfalso. destruct (St _ _ H') as (k & c & -> & K & -> & R). injection E as E. unfold all_ones in E. rewrite Z.mod_small in E by lia. lia.
Qed.

Theorem local_uris_partial : forall d d' lo lo' re re', face_uris w d = Ok (lo, re) -> face_uris w d' = Ok (lo', re') ->
  (lo = lo' <-> d = d' \/
     (sort_of ms (length (sw_links w)) d = Some OfSat /\ sort_of ms (length (sw_links w)) d' = Some OfSat) \/
     (sort_of ms (length (sw_links w)) d = Some OfLink /\ sort_of ms (length (sw_links w)) d' = Some OfLink)).
Proof.
  intros d d' lo lo' re re' F F'. destruct (same_local _ _ _ _ _ _ F F') as (s & s' & H & H' & Iff). rewrite Iff. clear Iff. split.
  - intros E. destruct (name_eq _ _ _ _ H H' E) as [->|[[-> ->]|[-> ->]]]; auto.
  - intros [->|[[A B]|[A B]]]; congruence.
Qed.

Lemma on_node_gs : forall n k, In (RGs k) (sn_devs (sw_nodes w n)) -> exists x, nth_error ms k = Some x /\ cl_node (snd x) = n.
Proof.
  intros n k H. destruct (script_devices debug ho plans plans_ok b first t0 l l_holds w w_ok) as (_ & _ & Hg & _). fold cs in Hg. fold ms in Hg.
  assert (G : In k (gs_of (sn_devs (sw_nodes w n)))) by (unfold gs_of; apply in_flat_map; exists (RGs k); split; [exact H|left; reflexivity]).
  rewrite Hg in G. apply places_in in G. destruct G as (i & x & -> & E & O). exists x. split; [exact E|]. unfold on in O. apply Nat.eqb_eq, O.
Qed.

Lemma on_node_isl : forall n k, In (RIsl k) (sn_devs (sw_nodes w n)) -> k < length (sw_links w).
Proof.
  intros n k H. destruct (script_links debug ho plans plans_ok b first t0 l l_holds w w_ok) as (nets & _ & _ & Hg).
  assert (G : In k (isl_of (sn_devs (sw_nodes w n)))) by (unfold isl_of; apply in_flat_map; exists (RIsl k); split; [exact H|left; reflexivity]).
  rewrite Hg in G. apply places_in in G. destruct G as (i & x & -> & E & O). apply nth_error_Some. cbn [Nat.add]. congruence.
Qed.

(** On one node the faces are told apart, but for those of links: all of these have the same two URIs, each naming the same
    address twice. *)
Theorem node_faces_partial : forall n d d', In d (sn_devs (sw_nodes w n)) -> In d' (sn_devs (sw_nodes w n)) ->
  (exists lo re, face_uris w d = Ok (lo, re)) /\
  (face_uris w d = face_uris w d' <-> d = d' \/ exists k k', d = RIsl k /\ d' = RIsl k').
Proof.
  intros n d d' H H'.
  assert (So : forall d, In d (sn_devs (sw_nodes w n)) -> exists s, sort_of ms (length (sw_links w)) d = Some s /\
     (s = OfSat -> exists k c, d = RGs k /\ nth_error ms k = Some (true, c) /\ cl_node c = n) /\ (s = OfLink <-> exists k, d = RIsl k)).
  { clear d d' H H'. intros [k|k] H; unfold sort_of.
    - destruct (on_node_gs n k H) as ([sat c] & E & N). rewrite E. eexists. split; [reflexivity|]. cbn [fst snd] in *. split.
      + destruct sat; intros Es; [|discriminate Es]. exists k, c. auto.
      + destruct sat; split; intros X; try discriminate X; destruct X as [? X]; discriminate X.
    - pose proof (on_node_isl n k H) as L. apply Nat.ltb_lt in L. rewrite L. eexists. split; [reflexivity|]. split; [intros X; discriminate X|].
      split; [intros _; exists k; reflexivity|reflexivity]. }
  destruct (So d H) as (s & S1 & S2 & S3). destruct (So d' H') as (s' & S1' & S2' & S3'). rewrite !face_uris_are, S1, S1'.
  split; [do 2 eexists; reflexivity|]. split.
  - intros E. injection E as E _. apply uri_of_eq in E; [|apply name_range|apply name_range].
    destruct (name_eq _ _ _ _ S1 S1' E) as [->|[[Es Es']|[Es Es']]]; [left; reflexivity| |].
    + left. destruct (S2 Es) as (k & c & -> & K & N). destruct (S2' Es') as (k' & c' & -> & K' & N'). f_equal.
      apply (launched_once (b_pos b) cs [] k k' c c' K K'). congruence.
    + right. destruct (proj1 S3 Es) as (k & ->). destruct (proj1 S3' Es') as (k' & ->). exists k, k'. auto.
  - intros [->|(k & k' & -> & ->)]; [congruence|].
    rewrite (proj2 S3 (ex_intro _ _ eq_refl)), (proj2 S3' (ex_intro _ _ eq_refl)). reflexivity.
Qed.
End Script.
Print Assumptions remote_end.
Print Assumptions face_uris_are.
Print Assumptions same_local.
Print Assumptions local_uris_partial.
Print Assumptions node_faces_partial.

(** One plane of three satellites, linked, and two stations. *)
Definition uri_plans (_ : nat) : plan := mkPlan 7 1 3 0 1000 60.
Definition uri_script : list sop := [SNew [0; 1; 2; 10; 11] 0; SIsl [0; 1; 2] 0].
Notation uri_world := (setup rational true LittleEndian (start uri_plans demo_before 4095 0) uri_script).

Lemma uri_proper : proper uri_plans.
Proof. intros h. cbn. repeat split; lia. Qed.

Example uri_case : match uri_world with
  | Ok w => sn_devs (sw_nodes w 1) = [RGs 1; RIsl 1; RIsl 2] /\
      map (face_uris w) [RGs 1; RIsl 1; RIsl 2; RGs 3; RGs 4] =
      map (fun x => Ok (txt (fst x), txt (snd x)))
        [("netdev://", "netdev://[ff:ff:ff:ff:ff:ff]");
         ("netdev://[ff:ff:ff:ff:ff:ff]", "netdev://[ff:ff:ff:ff:ff:ff]");
         ("netdev://[ff:ff:ff:ff:ff:ff]", "netdev://[ff:ff:ff:ff:ff:ff]");
         ("netdev://[00:00:00:00:0f:ff]", "satdev://[0000:0000:0000]");
         ("netdev://[00:00:00:00:10:00]", "satdev://[0000:0000:0000]")]%string /\
      map (isl_remote (sw_links w)) [0; 1; 2; 3; 4; 5] = map Ok [1; 0; 3; 2; 5; 4] /\ face_uris w (RIsl 6) = UB
  | _ => False end.
Proof. vm_compute. repeat split. Qed.

(** That the URIs tell faces of one node apart is false of its links. *)
Theorem node_faces_refuted : ~ (forall plans b l w n d d', proper plans -> holds 0 l ->
  setup rational true LittleEndian (start plans b 4095 0) l = Ok w ->
  In d (sn_devs (sw_nodes w n)) -> In d' (sn_devs (sw_nodes w n)) -> face_uris w d = face_uris w d' -> d = d').
Proof.
  intros H. pose proof uri_case as C. destruct uri_world as [w| | |] eqn:E; try contradiction. destruct C as (D & U & _).
  assert (X : RIsl 1 = RIsl 2).
  { apply (H uri_plans demo_before uri_script w 1 (RIsl 1) (RIsl 2) uri_proper Logic.I E).
    - rewrite D. right. left. reflexivity.
    - rewrite D. right. right. left. reflexivity.
    - pose proof (f_equal (fun x => nth 1 x UB) U) as U1. pose proof (f_equal (fun x => nth 2 x UB) U) as U2. cbn [map nth fst snd] in U1, U2. congruence. }
  discriminate X.
Qed.
Print Assumptions node_faces_refuted.

(** Nor do the local URIs of satellites tell them apart. *)
Theorem local_uris_refuted : ~ (forall plans b l w d d' lo re re', proper plans -> holds 0 l ->
  setup rational true LittleEndian (start plans b 4095 0) l = Ok w ->
  face_uris w d = Ok (lo, re) -> face_uris w d' = Ok (lo, re') -> d = d').
Proof.
  intros H. assert (C : match uri_world with Ok w => face_uris w (RGs 0) = Ok (txt "netdev://", txt "netdev://[ff:ff:ff:ff:ff:ff]") /\
     face_uris w (RGs 1) = Ok (txt "netdev://", txt "netdev://[ff:ff:ff:ff:ff:ff]") | _ => False end) by (vm_compute; auto).
  destruct uri_world as [w| | |] eqn:E; try contradiction. destruct C as [C1 C2].
  pose proof (H uri_plans demo_before uri_script w _ _ _ _ _ uri_proper Logic.I E C1 C2) as X. discriminate X.
Qed.
Print Assumptions local_uris_refuted.
