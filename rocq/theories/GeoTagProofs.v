From Coq Require Import ZArith List Lia Bool Arith.
From Verif Require Import Base SatAddrModel ConstellationModel GeoTagModel GeoTagSpec.
Import ListNotations.
Open Scope Z_scope.

Lemma c_int_small : forall x, 0 <= x < 2147483648 -> c_int x = x.
Proof. intros. unfold c_int. rewrite Z.mod_small; lia. Qed.

Lemma sub_mod : forall n a b, 0 <= a < n -> 0 <= b < n ->
  (b - a) mod n = if a <=? b then b - a else b - a + n.
Proof.
  intros. destruct (Z.leb_spec a b).
  - apply Z.mod_small. lia.
  - rewrite <- (Z_mod_plus_full (b - a) 1 n), Z.mul_1_l. apply Z.mod_small. lia.
Qed.

Lemma next_mod : forall n a, 0 <= a < n -> (a + 1) mod n = if a + 1 =? n then 0 else a + 1.
Proof.
  intros. destruct (Z.eqb_spec (a + 1) n).
  - rewrite e. apply Z_mod_same_full.
  - apply Z.mod_small. lia.
Qed.

Lemma prev_mod : forall n a, 0 <= a < n -> (n + a - 1) mod n = if a =? 0 then n - 1 else a - 1.
Proof.
  intros. destruct (Z.eqb_spec a 0).
  - subst. rewrite Z.add_0_r. apply Z.mod_small. lia.
  - replace (n + a - 1) with (a - 1 + 1 * n) by lia. rewrite Z_mod_plus_full. apply Z.mod_small. lia.
Qed.

Lemma quot_half : forall n, 0 <= n -> Z.quot n 2 = n / 2.
Proof. intros. apply Z.quot_div_nonneg; lia. Qed.
Lemma quot_neg_half : forall n, 0 <= n -> Z.quot (- n) 2 = - (n / 2).
Proof. intros. rewrite Z.quot_opp_l by lia. rewrite quot_half by lia. reflexivity. Qed.

Lemma ringdist_spec : forall n a b, 0 <= a < n -> 0 <= b < n ->
  ringdist n a b = Z.min (Z.abs (b - a)) (n - Z.abs (b - a)).
Proof.
  intros. unfold ringdist. rewrite !sub_mod by auto.
  destruct (Z.leb_spec a b), (Z.leb_spec b a); lia.
Qed.

(** The direction chosen on one ring. *)
Definition forward (n here tag : Z) : bool :=
  let dif := tag - here in
  if dif >? 0 then dif <=? Z.quot (c_int n) 2
  else negb (dif >=? Z.quot (- c_int n) 2).

Lemma get_target_forward : forall P S q j p i,
  get_target P S q j p i =
  if q =? p then (if j =? i then SEND_TO_GROUND else if forward S i j then NEXT_SAT else PREVIOUS_SAT)
  else if forward P p q then NEXT_PLANE else PREVIOUS_PLANE.
Proof.
  intros. unfold get_target, forward.
  destruct (q =? p); [destruct (j =? i); [reflexivity|]|].
  - destruct (j - i >? 0); [reflexivity|]. destruct (j - i >=? Z.quot (- c_int S) 2); reflexivity.
  - destruct (q - p >? 0); [reflexivity|]. destruct (q - p >=? Z.quot (- c_int P) 2); reflexivity.
Qed.

Ltac halves n := let H := fresh in
  pose proof (Z.div_mod n 2 ltac:(lia)) as H; pose proof (Z.mod_pos_bound n 2 ltac:(lia)).

Lemma forward_spec : forall n a b, 0 < n <= 65536 -> 0 <= a < n -> 0 <= b < n -> a <> b ->
  (forward n a b = true -> ringdist n ((a + 1) mod n) b = ringdist n a b - 1) /\
  (forward n a b = false -> ringdist n ((n + a - 1) mod n) b = ringdist n a b - 1) /\
  (2 * ringdist n a b = n -> (forward n a b = true <-> b > a)).
Proof.
  intros n a b Hn Ha Hb N. unfold forward. rewrite c_int_small by lia.
  rewrite quot_half, quot_neg_half by lia. rewrite next_mod, prev_mod by auto.
  halves n. rewrite Z.gtb_ltb, Z.geb_leb.
  assert (R : 0 <= (if a + 1 =? n then 0 else a + 1) < n) by (destruct (Z.eqb_spec (a + 1) n); lia).
  assert (R' : 0 <= (if a =? 0 then n - 1 else a - 1) < n) by (destruct (Z.eqb_spec a 0); lia).
  rewrite (ringdist_spec n a b), (ringdist_spec n _ b R Hb), (ringdist_spec n _ b R' Hb) by auto.
  destruct (Z.eqb_spec (a + 1) n), (Z.eqb_spec a 0), (Z.ltb_spec 0 (b - a));
    repeat split; intros;
    repeat match goal with
    | H : (_ <=? _) = true |- _ => apply Z.leb_le in H
    | H : (_ <=? _) = false |- _ => apply Z.leb_gt in H
    | H : negb _ = true |- _ => apply negb_true_iff in H
    | H : negb _ = false |- _ => apply negb_false_iff in H
    | |- (_ <=? _) = true => apply Z.leb_le
    | |- negb _ = true => apply negb_true_iff; apply Z.leb_gt
    end; lia.
Qed.

Lemma forward_outside : forall n a b, 0 < n <= 65536 -> 0 <= a < n -> b >= n -> b > n - 1 + n / 2 ->
  forward n a b = false.
Proof.
  intros. unfold forward. rewrite c_int_small by lia. rewrite quot_half by lia.
  halves n. rewrite Z.gtb_ltb. destruct (Z.ltb_spec 0 (b - a)); [|lia]. apply Z.leb_gt. lia.
Qed.

Lemma face_eqb_spec : forall a b, reflect (a = b) (face_eqb a b).
Proof.
  intros [|k|k|k] [|l|l|l]; simpl; try (constructor; congruence);
    destruct (Nat.eqb_spec k l); constructor; congruence.
Qed.

Lemma rfind_ok : forall A (p : A -> result bool) q l,
  (forall x, In x l -> p x = Ok (q x)) -> rfind p l = Ok (find q l).
Proof.
  induction l as [|a l IH]; simpl; intros H; [reflexivity|].
  rewrite H by auto. simpl. destruct (q a); [reflexivity|]. apply IH. auto.
Qed.

Lemma rfind_some : forall A (p : A -> result bool) l x, rfind p l = Ok (Some x) ->
  In x l /\ p x = Ok true /\ first_with (fun y => p y = Ok true) l x.
Proof.
  induction l as [|a l IH]; simpl; intros x H; [discriminate|].
  destruct (p a) as [[]| | |] eqn:E; simpl in H; try discriminate.
  - inversion H; subst. repeat split; auto. exists [], l. simpl. repeat split; auto; intros ? [].
  - destruct (IH x H) as (H1 & H2 & pre & post & -> & _ & H3). repeat split; auto.
    exists (a :: pre), post. simpl. repeat split; auto. intros y [<-|Hy]; [congruence|auto].
Qed.

Lemma rfind_none : forall A (p : A -> result bool) l, rfind p l = Ok None ->
  forall x, In x l -> p x = Ok false.
Proof.
  induction l as [|a l IH]; simpl; intros H x Hx; [contradiction|].
  destruct (p a) as [[]| | |] eqn:E; simpl in H; try discriminate.
  destruct Hx as [<-|Hx]; auto.
Qed.

Lemma find_first : forall A (p : A -> bool) l x, find p l = Some x ->
  first_with (fun y => p y = true) l x.
Proof.
  induction l as [|a l IH]; simpl; intros x H; [discriminate|].
  destruct (p a) eqn:E.
  - inversion H; subst. exists [], l. simpl. repeat split; auto; intros ? [].
  - destruct (IH x H) as (pre & post & -> & H2 & H3). exists (a :: pre), post. simpl.
    repeat split; auto. intros y [<-|Hy]; [congruence|auto].
Qed.

Lemma first_with_in : forall A (p : A -> Prop) l x, first_with p l x -> In x l /\ p x.
Proof.
  intros A p l x (pre & post & -> & H & _). split; auto. apply in_app_iff. simpl. auto.
Qed.

(** earliest: minimal last-renewed time, first among equals. *)
Lemma earliest_spec : forall rq l best,
  (forall f, In f l -> eligible rq f = true -> rq_out rq f <> None) ->
  exists r, earliest rq best l = Ok r /\
  match r with
  | None => best = None /\ forall f, In f l -> eligible rq f = false
  | Some (f, t) =>
      (best = Some (f, t) /\ forall g t' x, In g l -> eligible rq g = true -> rq_out rq g = Some (t', x) -> t <= t') \/
      (exists pre post x, l = pre ++ f :: post /\ eligible rq f = true /\ rq_out rq f = Some (t, x) /\
         (forall g t' x, In g pre -> eligible rq g = true -> rq_out rq g = Some (t', x) -> t < t') /\
         (forall g t' x, In g post -> eligible rq g = true -> rq_out rq g = Some (t', x) -> t <= t') /\
         (forall g b, best = Some (g, b) -> t < b))
  end.
Proof.
  intros rq. induction l as [|a l IH]; simpl; intros best H.
  - exists best. split; [reflexivity|]. destruct best as [[f t]|]; [left|]; split; auto; intros; contradiction.
  - destruct (eligible rq a) eqn:Ea.
    + destruct (rq_out rq a) as [[t x]|] eqn:Eo; [|exfalso; apply (H a); auto].
      assert (Hl : forall f, In f l -> eligible rq f = true -> rq_out rq f <> None) by auto.
      assert (New : forall (Hb : forall g b, best = Some (g, b) -> t < b),
        exists r, earliest rq (Some (a, t)) l = Ok r /\
        match r with
        | None => best = None /\ forall f, a = f \/ In f l -> eligible rq f = false
        | Some (f, t0) =>
          (best = Some (f, t0) /\ (forall g t' x, a = g \/ In g l -> eligible rq g = true -> rq_out rq g = Some (t', x) -> t0 <= t')) \/
          (exists pre post x, a :: l = pre ++ f :: post /\ eligible rq f = true /\ rq_out rq f = Some (t0, x) /\
           (forall g t' x, In g pre -> eligible rq g = true -> rq_out rq g = Some (t', x) -> t0 < t') /\
           (forall g t' x, In g post -> eligible rq g = true -> rq_out rq g = Some (t', x) -> t0 <= t') /\
           (forall g b, best = Some (g, b) -> t0 < b))
        end).
      { intros Hb. destruct (IH (Some (a, t)) Hl) as (r & Er & Hr). exists r. split; auto.
        destruct r as [[f t0]|]; [|destruct Hr; discriminate].
        right. destruct Hr as [[E Hr]|(pre & post & y & -> & E1 & E2 & E3 & E4 & E5)].
        - inversion E; subst. exists [], l, x. simpl. repeat split; auto. intros ? ? ? [].
        - exists (a :: pre), post, y. simpl. pose proof (E5 a t eq_refl).
          repeat split; auto.
          + intros g t' z [<-|Hg] K1 K2; [rewrite Eo in K2; inversion K2; subst; auto|eauto].
          + intros g b Eb. specialize (Hb g b Eb). lia. }
      destruct best as [[g b]|].
      * destruct (Z.ltb_spec t b).
        { apply New. intros ? ? E. inversion E; subst; auto. }
        destruct (IH (Some (g, b)) Hl) as (r & Er & Hr). exists r. split; auto.
        destruct r as [[f t0]|]; [|destruct Hr; discriminate].
        destruct Hr as [[E Hr]|(pre & post & y & -> & E1 & E2 & E3 & E4 & E5)].
        { left. inversion E; subst. split; auto. intros h t' z [<-|Hh] K1 K2; [|eauto].
          rewrite Eo in K2. inversion K2; subst. auto. }
        right. exists (a :: pre), post, y. simpl. pose proof (E5 g b eq_refl). repeat split; auto.
        intros h t' z [<-|Hg] K1 K2; [rewrite Eo in K2; inversion K2; subst; lia|eauto].
      * apply New. intros; discriminate.
    + assert (Hl : forall f, In f l -> eligible rq f = true -> rq_out rq f <> None) by auto.
      destruct (IH best Hl) as (r & Er & Hr). exists r. split; auto.
      destruct r as [[f t0]|].
      * destruct Hr as [[E Hr]|(pre & post & y & -> & E1 & E2 & E3 & E4 & E5)].
        { left. split; auto. intros g t' x [<-|Hg] K1 K2; [congruence|eauto]. }
        right. exists (a :: pre), post, y. simpl. repeat split; auto.
        intros g t' x [<-|Hg] K1 K2; [congruence|eauto].
      * destruct Hr as [-> Hr]. split; auto. intros f [<-|Hf]; auto.
Qed.
