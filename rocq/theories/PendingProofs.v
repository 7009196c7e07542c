From Coq Require Import ZArith List Bool Lia Arith.
From Verif Require Import Base SatAddrModel ConstellationModel GeoTagModel GeoTagSpec GeoTagProofs GeoTagNetProps PendingModel PendingSpec.
Import ListNotations.
Open Scope Z_scope.

Lemma same_face a b : face_eqb a b = true <-> a = b.
Proof. destruct a, b; cbn; try rewrite Nat.eqb_eq; split; try congruence; try discriminate; intros H; injection H; auto. Qed.
Lemma face_refl a : face_eqb a a = true.
Proof. apply same_face. reflexivity. Qed.
Lemma face_sym a b : face_eqb a b = face_eqb b a.
Proof.
  destruct (face_eqb a b) eqn:E; [apply same_face in E; subst; symmetry; apply face_refl|].
  destruct (face_eqb b a) eqn:F; [apply same_face in F; subst; rewrite face_refl in E; discriminate|reflexivity].
Qed.

Section Records.
Context {A : Type}.
Implicit Types (l : list (face * A)).

Lemma put_of g f x l : record_of g (record_put f x l) = if face_eqb f g then Some x else record_of g l.
Proof.
  induction l as [|[a y] l IH]; [reflexivity|]. cbn [record_put record_of].
  destruct (face_eqb a f) eqn:E.
  - apply same_face in E. subst a. cbn [record_of]. destruct (face_eqb f g); reflexivity.
  - cbn [record_of]. destruct (face_eqb a g) eqn:F; [|exact IH]. destruct (face_eqb f g) eqn:G; [|reflexivity].
    apply same_face in F. apply same_face in G. subst. rewrite face_refl in E. discriminate.
Qed.

Lemma drop_of g f l : record_of g (record_drop f l) = if face_eqb f g then None else record_of g l.
Proof.
  unfold record_drop. induction l as [|[a y] l IH]; [cbn; destruct (face_eqb f g); reflexivity|]. cbn [filter fst record_of].
  destruct (face_eqb a f) eqn:E.
  - apply same_face in E. subst a. cbn [negb]. rewrite IH. destruct (face_eqb f g); reflexivity.
  - cbn [negb record_of]. destruct (face_eqb a g) eqn:F; [|exact IH]. destruct (face_eqb f g) eqn:G; [|reflexivity].
    apply same_face in F. apply same_face in G. subst. rewrite face_refl in E. discriminate.
Qed.

Lemma put_in g y f x l : In (g, y) (record_put f x l) -> (g, y) = (f, x) \/ In (g, y) l.
Proof.
  induction l as [|[a z] l IH]; cbn [record_put].
  - intros [H|[]]. auto.
  - destruct (face_eqb a f); intros [H|H]; cbn; auto. destruct (IH H); auto.
Qed.
Lemma put_here f x l : In (f, x) (record_put f x l).
Proof. induction l as [|[a z] l IH]; cbn [record_put]; [left; reflexivity|]. destruct (face_eqb a f); cbn; auto. Qed.

Lemma put_nodup f x l : NoDup (map fst l) -> NoDup (map fst (record_put f x l)).
Proof.
  induction l as [|[a z] l IH]; cbn; intros H; [repeat constructor; auto|].
  inversion H as [|? ? N D]; subst. destruct (face_eqb a f) eqn:E; cbn.
  - apply same_face in E. subst a. constructor; assumption.
  - constructor; [|apply IH; exact D]. intros K. apply in_map_iff in K. destruct K as ([b y] & Eb & K). cbn in Eb. subst b.
    apply put_in in K. destruct K as [K|K]; [injection K as -> ->; rewrite face_refl in E; discriminate|].
    apply N. apply in_map_iff. exists (a, y). auto.
Qed.
Lemma drop_nodup f l : NoDup (map fst l) -> NoDup (map fst (record_drop f l)).
Proof.
  unfold record_drop. induction l as [|[a z] l IH]; cbn; intros H; [constructor|]. inversion H as [|? ? N D]; subst.
  destruct (negb (face_eqb a f)); cbn; [constructor|]; auto.
  intros K. apply N. apply in_map_iff in K. destruct K as (r & Er & K). apply filter_In in K. apply in_map_iff. exists r. tauto.
Qed.

Lemma of_in f x l : record_of f l = Some x -> In (f, x) l.
Proof.
  induction l as [|[a z] l IH]; cbn; [discriminate|]. destruct (face_eqb a f) eqn:E; intros H.
  - apply same_face in E. injection H as ->. subst. auto.
  - auto.
Qed.
Lemma in_of f x l : NoDup (map fst l) -> In (f, x) l -> record_of f l = Some x.
Proof.
  induction l as [|[a z] l IH]; cbn; intros D; [tauto|]. inversion D as [|? ? N D']; subst. intros [H|H].
  - injection H as -> ->. rewrite face_refl. reflexivity.
  - destruct (face_eqb a f) eqn:E; [|apply IH; assumption]. apply same_face in E. subst. exfalso. apply N.
    apply in_map_iff. exists (f, x). auto.
Qed.
End Records.

Lemma max_fold l x : In (fold_left Z.max l x) (x :: l) /\ forall y, In y (x :: l) -> y <= fold_left Z.max l x.
Proof.
  revert x. induction l as [|a l IH]; intros x; cbn.
  - split; [auto|]. intros y [->|[]]. lia.
  - destruct (IH (Z.max x a)) as [H K]. split.
    + destruct H as [H|H]; [|cbn; auto]. rewrite <- H. destruct (Z.max_spec x a) as [[_ ->]|[_ ->]]; auto.
    + assert (M : Z.max x a <= fold_left Z.max l (Z.max x a)) by (apply K; left; reflexivity).
      intros y [->|[->|Hy]]; [lia|lia|]. apply K. cbn. auto.
Qed.
Lemma latest_spec l : l <> [] -> In (latest l) l /\ forall y, In y l -> y <= latest l.
Proof. destruct l as [|x l]; [congruence|]. intros _. apply max_fold. Qed.

(** *** Who waits *)

Definition closed (ev : list pev) : bool := existsb (fun v => match v with AClosed => true | _ => false end) ev.
Definition nacked (g : face) (ev : list pev) : bool := existsb (fun v => match v with ANacked f _ => face_eqb f g | _ => false end) ev.
Definition after (ev : list pev) (w : face -> option Z) : face -> option Z :=
  fun g => if closed ev then None else if nacked g ev then None else w g.

Lemma after_app v1 v2 w g : after (v1 ++ v2) w g = after v2 (after v1 w) g.
Proof.
  unfold after, closed, nacked. rewrite !existsb_app.
  destruct (existsb _ v2); [rewrite orb_true_r; reflexivity|]. rewrite orb_false_r.
  destruct (existsb _ v2); [rewrite orb_true_r; destruct (existsb _ v1); reflexivity|]. rewrite orb_false_r. reflexivity.
Qed.

Definition Inv (w : face -> option Z) (now : Z) (s : option entry) : Prop :=
  match s with
  | Some e => NoDup (map fst (e_in e)) /\ (forall g x, record_of g (e_in e) = Some x -> x <= e_end e) /\
      forall g, record_of g (e_in e) = w g \/ (record_of g (e_in e) = None /\ exists x, w g = Some x /\ x <= now)
  | None => forall g x, w g = Some x -> x <= now
  end.

Lemma inv_same w w' now s : (forall g, w g = w' g) -> Inv w now s -> Inv w' now s.
Proof.
  intros E. destruct s as [e|]; cbn.
  - intros (D & B & R). split; [exact D|]. split; [exact B|]. intros g. rewrite <- E. apply R.
  - intros H g x Hg. apply (H g). rewrite E. exact Hg.
Qed.
Lemma inv_later w now t s : Inv w now s -> now <= t -> Inv w t (at_time t s).
Proof.
  intros I L. destruct s as [e|]; cbn in *.
  - destruct I as (D & B & R). destruct (t <? e_end e) eqn:T; cbn.
    + split; [exact D|]. split; [exact B|]. intros g. destruct (R g) as [H|(H & x & Hx & Lx)]; [auto|].
      right. split; [exact H|]. exists x. split; [exact Hx|lia].
    + apply Z.ltb_ge in T. intros g x Hg. destruct (R g) as [H|(H & y & Hy & Ly)].
      * rewrite Hg in H. apply B in H. lia.
      * rewrite Hg in Hy. injection Hy as ->. lia.
  - intros g x Hg. apply I in Hg. lia.
Qed.

Lemma nacked_none ev : (forall f r, ~ In (ANacked f r) ev) -> forall g, nacked g ev = false.
Proof.
  intros H g. unfold nacked. destruct (existsb _ ev) eqn:E; [|reflexivity]. apply existsb_exists in E.
  destruct E as (v & Hv & Hg). destruct v; try discriminate. destruct (H _ _ Hv).
Qed.

(** Only the in-records and the timer matter. *)
Lemma inv_only w now e e' : e_in e' = e_in e -> e_end e' = e_end e -> Inv w now (Some e) -> Inv w now (Some e').
Proof. cbn. intros -> ->. auto. Qed.

Lemma inv_out_nack w now e f reason e' ev : out_nack e f reason = (e', ev) -> Inv w now (Some e) ->
  Inv (after ev w) now (Some e') /\ closed ev = false.
Proof.
  unfold out_nack. intros E I. assert (Id : forall g, w g = after [] w g) by reflexivity.
  destruct (ad_hoc f); [injection E as <- <-; split; [apply (inv_same _ _ _ _ Id I)|reflexivity]|].
  destruct (record_of f (e_in e)) eqn:R; [|injection E as <- <-; split; [apply (inv_same _ _ _ _ Id I)|reflexivity]].
  injection E as <- <-. split; [|reflexivity]. destruct I as (D & B & Re). cbn [Inv e_in e_end].
  split; [apply drop_nodup, D|]. split.
  - intros g x. rewrite drop_of. destruct (face_eqb f g); [discriminate|]. apply B.
  - intros g. rewrite drop_of. unfold after, closed, nacked. cbn. rewrite orb_false_r.
    destruct (face_eqb f g); [left; reflexivity|]. apply Re.
Qed.

Lemma inv_out_nacks l : forall w now e reason e' ev, out_nacks e l reason = (e', ev) -> Inv w now (Some e) ->
  Inv (after ev w) now (Some e') /\ closed ev = false.
Proof.
  induction l as [|f l IH]; intros w now e reason e' ev E I; cbn in E.
  - injection E as <- <-. split; [exact I|reflexivity].
  - destruct (out_nack e f reason) as [e1 v1] eqn:E1. destruct (out_nacks e1 l reason) as [e2 v2] eqn:E2.
    injection E as <- <-. destruct (inv_out_nack _ _ _ _ _ _ _ E1 I) as [I1 C1]. destruct (IH _ _ _ _ _ _ E2 I1) as [I2 C2].
    split.
    + apply (inv_same _ _ _ _ (fun g => eq_sym (after_app v1 v2 w g)) I2).
    + unfold closed in *. rewrite existsb_app, C1, C2. reflexivity.
Qed.

Lemma inv_process w now e e' ev : process_nack e = (e', ev) -> Inv w now (Some e) ->
  Inv (after ev w) now (Some e') /\ closed ev = false.
Proof.
  unfold process_nack. intros E I.
  destruct (filter _ _) as [|[f r] [|r2 l]].
  - apply (inv_out_nacks _ _ _ _ _ _ _ E I).
  - destruct (record_of f (e_in e)); [apply (inv_out_nack _ _ _ _ _ _ _ E I)|].
    injection E as <- <-. split; [exact I|reflexivity].
  - injection E as <- <-. split; [exact I|reflexivity].
Qed.

Lemma inv_act w now t life tag s a s' ev : one_act t life tag s a = (s', ev) -> Inv w now s -> Inv (after ev w) now s'.
Proof.
  intros E I. destruct s as [e|]; cbn in E.
  - destruct a as [g|g|].
    + injection E as <- <-. exact I.
    + destruct (out_nack e g no_route) as [e1 v1] eqn:E1. injection E as <- <-. apply (inv_out_nack _ _ _ _ _ _ _ E1 I).
    + injection E as <- <-. cbn. discriminate.
  - injection E as <- <-. exact I.
Qed.
Lemma inv_acts l : forall w now t life tag s s' ev, do_acts t life tag s l = (s', ev) -> Inv w now s -> Inv (after ev w) now s'.
Proof.
  induction l as [|a l IH]; intros w now t life tag s s' ev E I; cbn in E.
  - injection E as <- <-. exact I.
  - destruct (one_act t life tag s a) as [s1 v1] eqn:E1. destruct (do_acts t life tag s1 l) as [s2 v2] eqn:E2. injection E as <- <-.
    apply (inv_same _ _ _ _ (fun g => eq_sym (after_app v1 v2 w g))). apply (IH _ _ _ _ _ _ _ _ E2). apply (inv_act _ _ _ _ _ _ _ _ _ E1 I).
Qed.

Lemma decide_keeps t e sup e' : retx_decide t e = (sup, e') -> e_in e' = e_in e /\ e_out e' = e_out e /\ e_end e' = e_end e.
Proof. unfold retx_decide. intros H. destruct (still_out t e); [destruct (_ <? _)|]; injection H as _ <-; auto. Qed.

Section Node.
Variable nw : network.
Variable h : host.
Variable self : dev.
Variable nexthops : list face.
Variable scope : face -> bool.
Notation step := (pit_step nw h self nexthops scope).
Notation run := (pit_run nw h self nexthops scope).

Definition entry_at (t : Z) (s : option entry) : entry := match at_time t s with Some e => e | None => e_new end.
Definition asked (t : Z) (s : option entry) (f : face) (life : Z) : entry :=
  mkE (record_put f (t + life) (e_in (entry_at t s))) (e_out (entry_at t s)) (e_wait (entry_at t s))
    (latest (map snd (record_put f (t + life) (e_in (entry_at t s))))).
Definition request_of (t : Z) (f : face) (tag : option (Z * Z * Z)) (x : suppression * entry) : request :=
  mkReq tag f (fst x) (fun g => option_map (fun r => (o_renewed r, o_expiry r)) (record_of g (e_out (snd x)))) scope t.

Lemma ask_step s t f tag life : step s (Ask t f tag life) =
  (do acts <- after_receive_interest nw h self nexthops (request_of t f tag (retx_decide t (asked t s f life))) ;
   Ok (do_acts t life tag (Some (snd (retx_decide t (asked t s f life)))) acts)).
Proof.
  unfold pit_step, asked, entry_at, request_of. destruct (at_time t s) as [e|]; destruct (retx_decide _ _) as [sup e2]; reflexivity.
Qed.

Lemma inv_asked w t s f life : Inv w t (at_time t s) ->
  Inv (fun g => if face_eqb f g then Some (t + life) else w g) t (Some (asked t s f life)).
Proof.
  intros I. unfold asked, entry_at. cbn [Inv e_in e_end].
  assert (D : NoDup (map fst (e_in (match at_time t s with Some e => e | None => e_new end)))).
  { destruct (at_time t s) as [e|]; [apply I|constructor]. }
  split; [apply put_nodup, D|]. split.
  - intros g x H. apply of_in in H. apply latest_spec.
    + intros K. apply map_eq_nil in K. rewrite K in H. destruct H.
    + apply in_map_iff. exists (g, x). auto.
  - intros g. rewrite put_of. destruct (face_eqb f g); [left; reflexivity|].
    destruct (at_time t s) as [e|]; [apply I|]. cbn. destruct (w g) as [x|] eqn:Hx; [|left; reflexivity].
    right. split; [reflexivity|]. exists x. split; [reflexivity|]. exact (I g x Hx).
Qed.

Lemma inv_step w now s o s' ev : step s o = Ok (s', ev) -> Inv w now s -> now <= pop_time o ->
  Inv (next_waiting w (o, ev)) (pop_time o) s'.
Proof.
  intros E I L. destruct o as [t f tag life|t f|t f reason]; cbn [pop_time] in *; pose proof (inv_later _ _ _ _ I L) as J.
  - rewrite ask_step in E. destruct (after_receive_interest _ _ _ _ _) as [acts| | |]; try discriminate. cbn [rbind] in E.
    injection E as E. pose proof (inv_asked _ _ _ f life J) as K.
    destruct (retx_decide t (asked t s f life)) as [sup e2] eqn:De. cbn [snd] in E.
    destruct (decide_keeps _ _ _ _ De) as (K1 & K2 & K3).
    exact (inv_acts _ _ _ _ _ _ _ _ _ E (inv_only _ _ _ _ K1 K3 K)).
  - cbn [pit_step] in E. assert (X : forall g, next_waiting w (Answer t f, ev) g = None).
    { intros g. unfold next_waiting. cbn [fst snd]. destruct (existsb _ ev); [reflexivity|]. destruct (existsb _ ev); reflexivity. }
    assert (s' = None) by (destruct (at_time t s); injection E as <- <-; reflexivity). subst s'. intros g x H. rewrite X in H. discriminate.
  - cbn [pit_step] in E. destruct (at_time t s) as [e|]; [|injection E as <- <-; exact J].
    destruct (ad_hoc f); [injection E as <- <-; exact J|].
    destruct (record_of f (e_out e)) as [r|]; [|injection E as <- <-; exact J].
    set (e1 := mkE (e_in e) _ _ _) in *. assert (J1 : Inv w t (Some e1)) by exact J.
    destruct (process_nack e1) as [e2 v] eqn:P. destruct (inv_process _ _ _ _ _ P J1) as [I2 C2].
    destruct (still_out t e1).
    + injection E as <- <-. exact I2.
    + injection E as <- <-. intros g x H. unfold next_waiting in H. cbn [fst snd] in H.
      rewrite existsb_app in H. cbn in H. rewrite orb_true_r in H. discriminate.
Qed.

Lemma run_app : forall a b s r, run s (a ++ b) = Ok r <-> exists s1 t1 s2 t2, run s a = Ok (s1, t1) /\ run s1 b = Ok (s2, t2) /\ r = (s2, t1 ++ t2).
Proof.
  induction a as [|o a IH]; intros b s r; cbn [app pit_run].
  - split.
    + destruct r as [s2 t2]. intros H. exists s, [], s2, t2. auto.
    + intros (s1 & t1 & s2 & t2 & H & K & ->). injection H as <- <-. exact K.
  - destruct (step s o) as [[s0 ev]| | |]; cbn [rbind].
    2-4: (split; [discriminate|intros (s1 & t1 & s2 & t2 & H & _); discriminate]).
    split.
    + intros H. destruct (run s0 (a ++ b)) as [[s9 t9]| | |] eqn:R; try discriminate. apply IH in R.
      destruct R as (s1 & t1 & s2 & t2 & Ra & Rb & Eq). injection Eq as -> ->. cbn [rbind] in H. injection H as <-.
      exists s1, ((o, ev) :: t1), s2, t2. rewrite Ra. cbn [rbind]. auto.
    + intros (s1 & t1 & s2 & t2 & H & K & ->). destruct (run s0 a) as [[s3 t3]| | |] eqn:R; try discriminate. cbn [rbind] in H.
      injection H as -> <-. assert (X : run s0 (a ++ b) = Ok (s2, t3 ++ t2)) by (apply IH; exists s1, t3, s2, t2; auto).
      rewrite X. reflexivity.
Qed.

Lemma run_ops : forall ops s s' tr, run s ops = Ok (s', tr) -> map fst tr = ops.
Proof.
  induction ops as [|o ops IH]; intros s s' tr H; cbn in H.
  - injection H as _ <-. reflexivity.
  - destruct (step s o) as [[s0 ev]| | |]; try discriminate. cbn [rbind] in H.
    destruct (run s0 ops) as [[s1 t1]| | |] eqn:R; try discriminate. cbn [rbind] in H. injection H as _ <-. cbn. f_equal. eapply IH, R.
Qed.

(** After any run, at any time not before its last operation. *)
Lemma inv_run : forall ops s tr, run None ops = Ok (s, tr) -> in_order ops ->
  forall t, (forall o, In o ops -> pop_time o <= t) -> exists now, now <= t /\ Inv (waiting tr) now s.
Proof.
  induction ops as [|o ops IH] using rev_ind; intros s tr R Or t Ht.
  - cbn in R. injection R as <- <-. exists t. split; [lia|]. cbn. discriminate.
  - apply run_app in R. destruct R as (s1 & t1 & s2 & t2 & Ra & Rb & Eq). injection Eq as -> ->.
    cbn in Rb. destruct (step s1 o) as [[s3 ev]| | |] eqn:St; try discriminate. cbn [rbind] in Rb. injection Rb as -> <-.
    destruct (IH _ _ Ra) with (t := pop_time o) as (now & Ln & I).
    + intros a x b y c E. apply (Or a x b y (c ++ [o])). rewrite E, <- app_assoc. cbn. rewrite <- app_assoc. reflexivity.
    + intros x Hx. apply in_split in Hx. destruct Hx as (a & b & ->). apply (Or a x b o []). rewrite <- app_assoc. reflexivity.
    + exists (pop_time o). split; [apply Ht, in_or_app; right; left; reflexivity|].
      unfold waiting. rewrite fold_left_app. cbn [fold_left]. exact (inv_step _ _ _ _ _ _ St I Ln).
Qed.

(** *** What was sent *)

(** The out-records: renewed when an Interest was sent; the interval stays within its limits. *)
Definition Out (tr : trace) (s : option entry) : Prop :=
  match s with
  | Some e => retx_initial <= e_wait e <= retx_max /\ forall g r, In (g, r) (e_out e) -> In (o_renewed r) (sent_at tr)
  | None => True
  end.

Lemma sent_app a b : sent_at (a ++ b) = sent_at a ++ sent_at b.
Proof. apply flat_map_app. Qed.

Lemma out_nack_keeps e f r e' ev : out_nack e f r = (e', ev) -> e_out e' = e_out e /\ e_wait e' = e_wait e /\ forall g tag, ~ In (ASent g tag) ev.
Proof.
  unfold out_nack. intros E. destruct (ad_hoc f); [injection E as <- <-; auto|].
  destruct (record_of f (e_in e)); injection E as <- <-; cbn; [|auto]. repeat split. intros g tag [H|[]]. discriminate.
Qed.
Lemma out_nacks_keep l : forall e r e' ev, out_nacks e l r = (e', ev) -> e_out e' = e_out e /\ e_wait e' = e_wait e /\ forall g tag, ~ In (ASent g tag) ev.
Proof.
  induction l as [|f l IH]; intros e r e' ev E; cbn in E.
  - injection E as <- <-. auto.
  - destruct (out_nack e f r) as [e1 v1] eqn:E1. destruct (out_nacks e1 l r) as [e2 v2] eqn:E2. injection E as <- <-.
    destruct (out_nack_keeps _ _ _ _ _ E1) as (A & B & C). destruct (IH _ _ _ _ E2) as (A2 & B2 & C2).
    split; [congruence|]. split; [congruence|]. intros g tag H. apply in_app_or in H. destruct H; [eapply C|eapply C2]; eauto.
Qed.
Lemma process_keeps e e' ev : process_nack e = (e', ev) -> e_out e' = e_out e /\ e_wait e' = e_wait e /\ forall g tag, ~ In (ASent g tag) ev.
Proof.
  unfold process_nack. intros E. destruct (filter _ _) as [|[f r] [|r2 l]].
  - apply (out_nacks_keep _ _ _ _ _ E).
  - destruct (record_of f (e_in e)); [apply (out_nack_keeps _ _ _ _ _ E)|]. injection E as <- <-. auto.
  - injection E as <- <-. auto.
Qed.

Lemma out_decide tr t e sup e' : retx_decide t e = (sup, e') -> Out tr (Some e) -> Out tr (Some e').
Proof.
  unfold retx_decide. intros H (W & R). destruct (still_out t e); [destruct (_ <? _)|]; injection H as _ <-; try (split; assumption).
  cbn. split; [|exact R]. unfold retx_initial, retx_max in *. lia.
Qed.

Lemma out_at tr t s : Out tr s -> Out tr (Some (entry_at t s)).
Proof.
  unfold entry_at, at_time. destruct s as [e|]; cbn [Out]; [destruct (_ <? _)|]; try tauto.
  all: intros _; cbn; split; [unfold retx_initial, retx_max; lia|tauto].
Qed.
Lemma out_asked tr t s f life : Out tr s -> Out tr (Some (asked t s f life)).
Proof. intros H. apply (out_at tr t) in H. exact H. Qed.

(** The reaction to an Interest, once the entry has been brought up to date. *)
Lemma ask_cases s t f tag life s' ev : step s (Ask t f tag life) = Ok (s', ev) ->
  let (sup, e) := retx_decide t (asked t s f life) in
  (s' = Some e /\ ev = [] /\ (sup = SUPPRESS \/ sup = FORWARD)) \/
  (exists g, sup <> SUPPRESS /\ In g nexthops /\ ev = [ASent g tag] /\
     s' = Some (mkE (e_in e) (record_put g (mkO t (t + life) None) (e_out e)) (e_wait e) (e_end e))) \/
  (sup <> SUPPRESS /\ s' = None /\ ev = (if ad_hoc f then [AClosed] else [ANacked f no_route; AClosed])).
Proof.
  rewrite ask_step. intros E. destruct (after_receive_interest _ _ _ _ _) as [acts| | |] eqn:A; try discriminate. cbn [rbind] in E.
  injection E as E. apply one_reaction in A. unfold request_of in A.
  assert (Ein : record_of f (e_in (snd (retx_decide t (asked t s f life)))) = Some (t + life)).
  { destruct (retx_decide t (asked t s f life)) as [sup e] eqn:De. cbn [snd]. destruct (decide_keeps _ _ _ _ De) as (-> & _). cbn. rewrite put_of, face_refl. reflexivity. }
  destruct (retx_decide t (asked t s f life)) as [sup e]. cbn [fst snd rq_sup rq_ingress] in *.
  destruct A as [(-> & A)|[(A & g & -> & Hg & _)|(A & ->)]].
  - cbn in E. injection E as <- <-. left. tauto.
  - cbn in E. injection E as <- <-. right. left. exists g. tauto.
  - right. right. split; [exact A|]. cbn [do_acts one_act] in E. unfold out_nack in E. destruct (ad_hoc f).
    + cbn in E. injection E as <- <-. auto.
    + rewrite Ein in E. cbn in E. injection E as <- <-. auto.
Qed.

Lemma out_step tr s o s' ev : step s o = Ok (s', ev) -> Out tr s -> Out (tr ++ [(o, ev)]) s'.
Proof.
  intros E O. assert (M : forall s0 ev0, Out tr s0 -> Out (tr ++ [(o, ev0)]) s0).
  { intros [e|] ev0; [|tauto]. intros [W R]. split; [exact W|]. intros g r H. rewrite sent_app. apply in_or_app. left. eapply R, H. }
  destruct o as [t f tag life|t f|t f reason].
  - apply ask_cases in E. pose proof (out_asked tr t s f life O) as Oa.
    destruct (retx_decide t (asked t s f life)) as [sup e] eqn:De. apply (out_decide _ _ _ _ _ De) in Oa.
    destruct E as [(-> & _)|[(g & _ & _ & -> & ->)|(_ & -> & _)]].
    + apply M, Oa.
    + destruct Oa as [W R]. split; [exact W|]. cbn [e_out]. intros g' r H. apply put_in in H. rewrite sent_app. apply in_or_app.
      destruct H as [H|H]; [injection H as -> ->; right; cbn; auto|left; eapply R, H].
    + exact Logic.I.
  - cbn in E. destruct (at_time t s); injection E as <- <-; exact Logic.I.
  - cbn [pit_step] in E. assert (Oe : Out tr (at_time t s)) by (unfold at_time; destruct s as [e|]; [destruct (_ <? _); [exact O|exact Logic.I]|exact Logic.I]).
    destruct (at_time t s) as [e|]; [|injection E as <- <-; exact Logic.I].
    destruct (ad_hoc f); [injection E as <- <-; apply M, Oe|].
    destruct (record_of f (e_out e)) as [r|] eqn:Rf; [|injection E as <- <-; apply M, Oe].
    set (e1 := mkE (e_in e) _ _ _) in *. destruct (process_nack e1) as [e2 v] eqn:P. destruct (process_keeps _ _ _ P) as (K1 & K2 & _).
    destruct (still_out t e1); injection E as <- <-; [|exact Logic.I]. apply M. destruct Oe as [W R]. split; [rewrite K2; exact W|].
    rewrite K1. unfold e1. cbn [e_out]. intros g r' H. apply put_in in H. destruct H as [H|H]; [|eapply R, H].
    injection H as -> ->. cbn. eapply R. apply of_in, Rf.
Qed.

Lemma out_run : forall ops s tr, run None ops = Ok (s, tr) -> Out tr s.
Proof.
  induction ops as [|o ops IH] using rev_ind; intros s tr R.
  - cbn in R. injection R as <- <-. exact Logic.I.
  - apply run_app in R. destruct R as (s1 & t1 & s2 & t2 & Ra & Rb & Eq). injection Eq as -> ->.
    cbn in Rb. destruct (step s1 o) as [[s3 ev]| | |] eqn:St; try discriminate. cbn [rbind] in Rb. injection Rb as -> <-.
    exact (out_step _ _ _ _ _ St (IH _ _ Ra)).
Qed.

(** Nothing sent for 250 ms: no suppression. *)
Lemma not_suppressed tr s t f life : Out tr s -> (forall x, In x (sent_at tr) -> x <= t - retx_max) ->
  fst (retx_decide t (asked t s f life)) <> SUPPRESS.
Proof.
  intros O Q. apply (out_asked tr t s f life) in O. destruct O as [W R]. unfold retx_decide.
  destruct (still_out t (asked t s f life)) eqn:So; [|discriminate].
  destruct (_ <? _) eqn:L; [|discriminate]. exfalso. apply Z.ltb_lt in L.
  assert (Ne : map (fun r : face * orec => o_renewed (snd r)) (e_out (asked t s f life)) <> []).
  { intros K. apply map_eq_nil in K. unfold still_out in So. rewrite K in So. discriminate. }
  destruct (latest_spec _ Ne) as [Hin _]. apply in_map_iff in Hin. destruct Hin as ([g r] & Er & Hin). cbn [snd] in Er.
  apply R in Hin. apply Q in Hin. rewrite Er in Hin. lia.
Qed.

(** *** How often *)

Lemma gap_max k : 0 <= least_gap k <= 250.
Proof. unfold least_gap. assert (0 < 2 ^ Z.of_nat k) by (apply Z.pow_pos_nonneg; lia). lia. Qed.
Lemma gap_next k : least_gap (S k) <= 2 * least_gap k.
Proof. unfold least_gap. rewrite Nat2Z.inj_succ, Z.pow_succ_r by lia. assert (0 < 2 ^ Z.of_nat k) by (apply Z.pow_pos_nonneg; lia). lia. Qed.
Lemma sum_app a b : fold_right Z.add 0 (a ++ b) = fold_right Z.add 0 a + fold_right Z.add 0 b.
Proof. induction a as [|x a IH]; cbn; lia. Qed.
Lemma time_next k : least_time (S k) = least_time k + least_gap k.
Proof. unfold least_time. rewrite seq_S, map_app, sum_app. cbn. lia. Qed.
Lemma time_more k n : least_time (k + n) <= least_time k + 250 * Z.of_nat n.
Proof.
  induction n as [|n IH]; [rewrite Nat.add_0_r; lia|]. replace (k + S n)%nat with (S (k + n)) by lia. rewrite time_next.
  pose proof (gap_max (k + n)). lia.
Qed.

Definition Paced (tr : trace) : Prop := forall k t t0, nth_error (sent_at tr) 0 = Some t0 -> nth_error (sent_at tr) k = Some t ->
  t0 + ms (least_time k) <= t.

Lemma paced_more tr tr' t : sent_at tr' = sent_at tr ++ [t] -> Paced tr ->
  (forall t0 rest, sent_at tr = t0 :: rest -> t0 + ms (least_time (List.length (sent_at tr))) <= t) -> Paced tr'.
Proof.
  intros E P H k x t0 H0 Hk. rewrite E in *.
  destruct (Nat.lt_ge_cases k (List.length (sent_at tr))) as [L|L].
  - assert (L0 : (0 < List.length (sent_at tr))%nat) by lia.
    rewrite nth_error_app1 in H0 by exact L0. rewrite nth_error_app1 in Hk by exact L. exact (P _ _ _ H0 Hk).
  - rewrite nth_error_app2 in Hk by exact L. destruct (k - List.length (sent_at tr))%nat as [|d] eqn:Ed; [|destruct d; discriminate].
    cbn in Hk. injection Hk as <-. assert (k = List.length (sent_at tr)) by lia. subst k. clear Ed L.
    destruct (sent_at tr) as [|a rest] eqn:Es.
    + cbn in H0. injection H0 as ->. cbn. unfold ms. lia.
    + cbn in H0. injection H0 as ->. exact (H t0 rest eq_refl).
Qed.


Lemma last_more {A} (l : list A) x d : last (l ++ [x]) d = x.
Proof. induction l as [|a l IH]; [reflexivity|]. cbn. destruct (l ++ [x]) eqn:E; [destruct l; discriminate|exact IH]. Qed.

Lemma at_some t s e : at_time t s = Some e -> s = Some e.
Proof. unfold at_time. destruct s as [e'|]; [destruct (_ <? _); congruence|discriminate]. Qed.

(** [j] times an Interest was sent with the interval growing, [i] times after everything out had expired. *)
Definition Good (tr : trace) (e : entry) : Prop :=
  (forall g r, In (g, r) (e_out e) -> o_nack r = None) /\ e_wait e <= retx_max /\
  match sent_at tr with
  | [] => e_out e = [] /\ e_wait e = retx_initial
  | t0 :: rest => exists j i, List.length rest = (j + i)%nat /\ ms (least_gap j) <= e_wait e /\
      t0 + ms (least_time j + 250 * Z.of_nat i) <= last rest t0 /\
      (exists g r, In (g, r) (e_out e) /\ o_renewed r = last rest t0 /\ last rest t0 + ms 250 <= o_expiry r) /\
      forall g r, In (g, r) (e_out e) -> o_renewed r <= last rest t0
  end.

Lemma good_asked tr s t f life : (forall e, s = Some e -> Good tr e) -> (sent_at tr = [] \/ exists e, at_time t s = Some e) ->
  Good tr (asked t s f life).
Proof.
  intros R Al. destruct (at_time t s) as [e|] eqn:At.
  - unfold asked, entry_at. rewrite At. apply at_some in At. exact (R e At).
  - destruct Al as [Al|[e Al]]; [|discriminate]. unfold asked, entry_at, Good. rewrite At, Al. cbn.
    split; [tauto|]. split; [unfold retx_initial, retx_max; lia|auto].
Qed.

Lemma rate_ask tr s t f tag life s' ev : step s (Ask t f tag life) = Ok (s', ev) -> ms 250 <= life ->
  Paced tr -> (forall e, s = Some e -> Good tr e) -> (sent_at tr = [] \/ exists e, at_time t s = Some e) ->
  Paced (tr ++ [(Ask t f tag life, ev)]) /\ forall e, s' = Some e -> Good (tr ++ [(Ask t f tag life, ev)]) e.
Proof.
  intros E Hl P R Al. apply ask_cases in E. apply (good_asked _ _ _ f life R) in Al. clear R.
  set (e0 := asked t s f life) in *. clearbody e0. destruct Al as (Nk & Wm & R).
  assert (Ns : forall w, sent_at (tr ++ [(Ask t f tag life, w)]) = sent_at tr ++ flat_map (fun v => match v with ASent _ _ => [t] | _ => [] end) w).
  { intros w. rewrite sent_app. cbn. rewrite app_nil_r. reflexivity. }
  destruct (retx_decide t e0) as [sup e] eqn:De. destruct (decide_keeps _ _ _ _ De) as (_ & Ko & _).
  assert (We' : e_wait e <= retx_max).
  { unfold retx_decide in De. destruct (still_out t e0); [destruct (_ <? _)|]; injection De as _ <-; cbn [e_wait]; lia. }
  destruct E as [(-> & -> & _)|[(g & Nsup & _ & -> & ->)|(_ & -> & ->)]].
  - split.
    + intros k x t0. rewrite Ns, app_nil_r. apply P.
    + intros e' E'. injection E' as <-. unfold Good. rewrite Ns, app_nil_r, Ko. split; [exact Nk|]. split; [exact We'|].
      destruct (sent_at tr) as [|t0 rest].
      * destruct R as [R0 R1]. split; [exact R0|]. unfold retx_decide in De. unfold still_out in De. rewrite R0 in De. injection De as _ <-. exact R1.
      * destruct R as (j & i & A & B & C). exists j, i. split; [exact A|]. split; [|exact C].
        pose proof (gap_max j). unfold retx_decide in De. destruct (still_out t e0); [destruct (_ <? _)|]; injection De as _ <-; cbn; unfold ms, retx_max in *; lia.
  - assert (Hs : sent_at (tr ++ [(Ask t f tag life, [ASent g tag])]) = sent_at tr ++ [t]) by (rewrite Ns; reflexivity).
    assert (Nk' : forall g0 r, In (g0, r) (record_put g (mkO t (t + life) None) (e_out e)) -> o_nack r = None).
    { intros g0 r H. apply put_in in H. destruct H as [H|H]; [injection H as -> ->; reflexivity|]. rewrite Ko in H. eapply Nk, H. }
    destruct (sent_at tr) as [|t0 rest] eqn:Es.
    + cbn in Hs. destruct R as [R0 R1].
      assert (W0 : e_wait e = retx_initial) by (unfold retx_decide, still_out in De; rewrite R0 in De; injection De as _ <-; exact R1).
      split.
      * intros k x t1. rewrite Hs. destruct k as [|k]; cbn.
        -- intros H K. injection H as ->. injection K as ->. cbn. unfold ms. lia.
        -- destruct k; discriminate.
      * intros e' E'. injection E' as <-. unfold Good. cbn [e_out e_wait]. split; [exact Nk'|]. split; [exact We'|]. rewrite Hs.
        exists 0%nat, 0%nat. split; [reflexivity|]. cbn [last]. split; [rewrite W0; unfold ms, retx_initial; cbn; lia|].
        split; [unfold ms; cbn; lia|]. split; [exists g, (mkO t (t + life) None); split; [apply put_here|]; cbn [o_renewed o_expiry]; split; [reflexivity|lia]|].
        intros g0 r H. apply put_in in H. destruct H as [H|H]; [injection H as -> ->; cbn; lia|]. rewrite Ko, R0 in H. destruct H.
    + destruct R as (j & i & Ln & Wj & Tj & (gl & rl & Hin & Hr & Hx) & All).
      set (tl := last rest t0) in *.
      assert (Lat : latest (map (fun r : face * orec => o_renewed (snd r)) (e_out e0)) = tl).
      { assert (Il : In tl (map (fun r : face * orec => o_renewed (snd r)) (e_out e0))) by (apply in_map_iff; exists (gl, rl); auto).
        destruct (latest_spec (map (fun r : face * orec => o_renewed (snd r)) (e_out e0))) as [LA LB]; [intros K; rewrite K in Il; destruct Il|].
        apply LB in Il. apply in_map_iff in LA. destruct LA as ([g1 r1] & E1 & H1). apply All in H1. cbn [snd] in E1. rewrite <- E1 in Il |- *. lia. }
      (* either way the time since the last one is at least the interval that counts *)
      assert (Step : exists j' i', List.length (rest ++ [t]) = (j' + i')%nat /\ ms (least_gap j') <= e_wait e /\
                t0 + ms (least_time j' + 250 * Z.of_nat i') <= t /\ tl <= t).
      { unfold retx_decide in De. destruct (still_out t e0) eqn:So.
        - rewrite Lat in De. destruct (t - tl <? e_wait e0) eqn:Lt; [injection De as <- <-; congruence|].
          apply Z.ltb_ge in Lt. injection De as _ <-. exists (S j), i. rewrite app_length. cbn [List.length e_wait].
          split; [lia|]. pose proof (gap_next j). pose proof (gap_max (S j)). pose proof (gap_max j). rewrite time_next.
          unfold ms, retx_max in *. split; [lia|]. split; lia.
        - injection De as _ <-. exists j, (S i). rewrite app_length. cbn [List.length]. split; [lia|]. split; [exact Wj|].
          assert (Ex : o_expiry rl < t).
          { destruct (o_expiry rl <? t) eqn:L; [apply Z.ltb_lt, L|]. exfalso. apply Z.ltb_ge in L.
            unfold still_out in So. assert (X : existsb (fun r : face * orec => (t <=? o_expiry (snd r)) && match o_nack (snd r) with None => true | Some _ => false end) (e_out e0) = true).
            { apply existsb_exists. exists (gl, rl). split; [exact Hin|]. cbn [snd]. rewrite (Nk _ _ Hin), andb_true_r. apply Z.leb_le, L. }
            congruence. }
          unfold ms in *. split; lia. }
      destruct Step as (j' & i' & Ln' & Wj' & Tj' & Lt').
      split.
      * refine (paced_more tr _ t _ P _); [rewrite Es; exact Hs|]. intros a b K. rewrite Es in K. injection K as <- <-.
        assert (Lk : List.length (sent_at tr) = (j' + i')%nat) by (rewrite Es; rewrite app_length in Ln'; cbn in *; lia).
        rewrite Lk. pose proof (time_more j' i'). unfold ms in *. lia.
      * intros e' E'. injection E' as <-. unfold Good. cbn [e_out e_wait]. split; [exact Nk'|]. split; [exact We'|]. rewrite Hs. cbn [app].
        exists j', i'. split; [exact Ln'|]. split; [exact Wj'|]. rewrite last_more. split; [exact Tj'|].
        split; [exists g, (mkO t (t + life) None); split; [apply put_here|]; cbn [o_renewed o_expiry]; split; [reflexivity|lia]|].
        intros g0 r H. apply put_in in H. destruct H as [H|H]; [injection H as -> ->; cbn; lia|]. rewrite Ko in H. apply All in H. lia.
  - split; [|discriminate]. intros k x t0. rewrite Ns. destruct (ad_hoc f); cbn [flat_map app]; rewrite app_nil_r; apply P.
Qed.

Lemma rate_run : forall ops s tr, run None ops = Ok (s, tr) -> in_order ops -> Forall patient ops -> wanted tr ->
  Paced tr /\ forall e, s = Some e -> Good tr e.
Proof.
  induction ops as [|o ops IH] using rev_ind; intros s tr R Or Pa Wa.
  - cbn in R. injection R as <- <-. split; [intros k t t0 H; discriminate|discriminate].
  - apply run_app in R. destruct R as (s1 & t1 & s2 & t2 & Ra & Rb & Eq). injection Eq as -> ->.
    cbn in Rb. destruct (step s1 o) as [[s3 ev]| | |] eqn:St; try discriminate. cbn [rbind] in Rb. injection Rb as -> <-.
    assert (Or1 : in_order ops).
    { intros a x b y c E. apply (Or a x b y (c ++ [o])). rewrite E, <- app_assoc. cbn. rewrite <- app_assoc. reflexivity. }
    apply Forall_app in Pa. destruct Pa as [Pa Po]. inversion Po as [|? ? Po' _]; subst.
    assert (Wa1 : wanted t1).
    { intros a x b E. apply (Wa a x (b ++ [(o, ev)])). rewrite E, <- app_assoc. reflexivity. }
    destruct (IH _ _ Ra Or1 Pa Wa1) as [P G].
    destruct o as [t f tag life|t f|t f reason]; [| |destruct Po'].
    + refine (rate_ask _ _ _ _ _ _ _ _ St Po' P G _). destruct t1 as [|x t1]; [left; reflexivity|]. right.
      destruct (Wa (x :: t1) (Ask t f tag life, ev) [] eq_refl ltac:(discriminate)) as (g & y & Hg & Ly). cbn [fst pop_time] in Ly.
      destruct (inv_run _ _ _ Ra Or1 t) as (now & Ln & I).
      { intros o' Ho. apply in_split in Ho. destruct Ho as (a & b & ->). apply (Or a o' b (Ask t f tag life) []). rewrite <- app_assoc. reflexivity. }
      apply (inv_later _ _ _ _ I) in Ln. destruct (at_time t s1) as [e|]; [eexists; reflexivity|]. cbn in Ln. apply Ln in Hg. lia.
    + assert (Hs : sent_at (t1 ++ [(Answer t f, ev)]) = sent_at t1).
      { rewrite sent_app. cbn in St |- *. destruct (at_time t s1) as [e|]; injection St as _ <-; cbn; [|apply app_nil_r].
        rewrite !app_nil_r. unfold data_to. induction (filter _ _) as [|q l IHl]; [apply app_nil_r|exact IHl]. }
      split; [intros k x t0; rewrite Hs; apply P|]. cbn in St. destruct (at_time t s1); injection St as <- _; discriminate.
Qed.

(** *** Nacks *)

Definition Up (tr : trace) (e : entry) : Prop :=
  NoDup (map fst (e_out e)) /\ forall g, option_map o_nack (record_of g (e_out e)) = upstream tr g.

Lemma up_more tr x g : upstream (tr ++ [x]) g = next_asked (upstream tr) x g.
Proof. unfold upstream. rewrite fold_left_app. reflexivity. Qed.

Lemma no_sent (ev : list pev) g : (forall g' tag, ~ In (ASent g' tag) ev) ->
  existsb (fun v => match v with ASent f _ => face_eqb f g | _ => false end) ev = false.
Proof.
  intros H. destruct (existsb _ ev) eqn:E; [|reflexivity]. apply existsb_exists in E. destruct E as (v & Hv & E).
  destruct v; try discriminate. destruct (H _ _ Hv).
Qed.

Lemma up_run : forall ops s tr, run None ops = Ok (s, tr) -> in_order ops -> wanted tr -> forall e, s = Some e -> Up tr e.
Proof.
  induction ops as [|o ops IH] using rev_ind; intros s tr R Or Wa e Es.
  - cbn in R. injection R as <- <-. discriminate.
  - apply run_app in R. destruct R as (s1 & t1 & s2 & t2 & Ra & Rb & Eq). injection Eq as -> ->.
    cbn in Rb. destruct (step s1 o) as [[s3 ev]| | |] eqn:St; try discriminate. cbn [rbind] in Rb. injection Rb as -> <-.
    assert (Or1 : in_order ops).
    { intros a x b y c E. apply (Or a x b y (c ++ [o])). rewrite E, <- app_assoc. cbn. rewrite <- app_assoc. reflexivity. }
    assert (Wa1 : wanted t1).
    { intros a x b E. apply (Wa a x (b ++ [(o, ev)])). rewrite E, <- app_assoc. reflexivity. }
    pose proof (IH _ _ Ra Or1 Wa1) as G. clear IH.
    assert (U0 : Up t1 (entry_at (pop_time o) s1)).
    { destruct t1 as [|x t1].
      - assert (ops = []) by (apply run_ops in Ra; exact (eq_sym Ra)). subst ops. cbn in Ra. injection Ra as <-. cbn. split; [constructor|reflexivity].
      - destruct (Wa (x :: t1) (o, ev) [] eq_refl ltac:(discriminate)) as (g & y & Hg & Ly). cbn [fst] in Ly.
        destruct (inv_run _ _ _ Ra Or1 (pop_time o)) as (now & Ln & I).
        { intros o' Ho. apply in_split in Ho. destruct Ho as (a & b & ->). apply (Or a o' b o []). rewrite <- app_assoc. reflexivity. }
        apply (inv_later _ _ _ _ I) in Ln. unfold entry_at. destruct (at_time (pop_time o) s1) as [e1|] eqn:At.
        + apply at_some in At. exact (G e1 At).
        + cbn in Ln. apply Ln in Hg. lia. }
    destruct o as [t f tag life|t f|t f reason]; cbn [pop_time] in U0.
    + apply ask_cases in St. assert (U1 : Up t1 (asked t s1 f life)) by exact U0.
      destruct (retx_decide t (asked t s1 f life)) as [sup e1] eqn:De. destruct (decide_keeps _ _ _ _ De) as (_ & Ko & _).
      destruct U1 as [D U]. rewrite <- Ko in D, U. destruct St as [(-> & -> & _)|[(g & _ & _ & -> & ->)|(_ & -> & _)]]; [| |discriminate].
      * injection Es as <-. split; [exact D|]. intros g. rewrite up_more. apply U.
      * injection Es as <-. unfold Up. cbn [e_out]. split; [apply put_nodup, D|]. intros g'. rewrite up_more, put_of. unfold next_asked. cbn.
        destruct (face_eqb g g'); [reflexivity|]. apply U.
    + cbn in St. destruct (at_time t s1); injection St as <- _; discriminate.
    + cbn [pit_step] in St. unfold entry_at in U0. destruct (at_time t s1) as [e1|]; [|injection St as <- _; discriminate].
      destruct U0 as [D U]. destruct (ad_hoc f) eqn:Ah.
      * injection St as <- <-. injection Es as <-. split; [exact D|]. intros g. rewrite up_more. unfold next_asked. cbn. rewrite Ah, andb_false_r. apply U.
      * destruct (record_of f (e_out e1)) as [r|] eqn:Rf.
        2:{ injection St as <- <-. injection Es as <-. split; [exact D|]. intros g. rewrite up_more. unfold next_asked. cbn. rewrite Ah, andb_true_r.
            destruct (face_eqb f g) eqn:F; [|apply U]. apply same_face in F. subst g. rewrite <- U, Rf. reflexivity. }
        set (e2 := mkE (e_in e1) _ _ _) in *. destruct (process_nack e2) as [e3 v] eqn:P. destruct (process_keeps _ _ _ P) as (K1 & _ & K3).
        destruct (still_out t e2); injection St as <- <-; [|discriminate]. injection Es as <-. split; rewrite K1; [apply put_nodup, D|].
        intros g. rewrite up_more. unfold next_asked. cbn [snd fst]. rewrite (no_sent v g K3), Ah, andb_true_r. unfold e2. cbn [e_out]. rewrite put_of.
        destruct (face_eqb f g) eqn:F; [|apply U]. apply same_face in F. subst g. rewrite <- U, Rf. reflexivity.
Qed.

Lemma out_nacks_events : forall l e reason e' ev, NoDup l -> out_nacks e l reason = (e', ev) ->
  forall v, In v ev <-> exists g, v = ANacked g reason /\ In g l /\ ad_hoc g = false /\ record_of g (e_in e) <> None.
Proof.
  induction l as [|f l IH]; intros e reason e' ev D E v; cbn in E.
  - injection E as <- <-. split; [intros []|intros (g & _ & [] & _)].
  - inversion D as [|? ? Nf D']; subst. destruct (out_nack e f reason) as [e1 v1] eqn:E1. destruct (out_nacks e1 l reason) as [e2 v2] eqn:E2.
    injection E as <- <-. pose proof (IH _ _ _ _ D' E2 v) as H. rewrite in_app_iff, H. clear H IH.
    assert (S1 : forall g, In g l -> record_of g (e_in e1) = record_of g (e_in e)).
    { intros g Hg. unfold out_nack in E1. destruct (ad_hoc f); [injection E1 as <- <-; reflexivity|].
      destruct (record_of f (e_in e)); injection E1 as <- <-; [|reflexivity]. cbn [e_in]. rewrite drop_of.
      destruct (face_eqb f g) eqn:F; [|reflexivity]. apply same_face in F. subst g. contradiction. }
    assert (S2 : In v v1 <-> v = ANacked f reason /\ ad_hoc f = false /\ record_of f (e_in e) <> None).
    { unfold out_nack in E1. destruct (ad_hoc f) eqn:Ah; [injection E1 as <- <-; split; [intros []|intros (_ & K & _); discriminate]|].
      destruct (record_of f (e_in e)) eqn:Rf; injection E1 as <- <-.
      - split; [intros [<-|[]]; repeat split; discriminate|intros (-> & _); left; reflexivity].
      - split; [intros []|intros (_ & _ & K); congruence]. }
    split.
    + intros [H|(g & -> & Hg & A & B)].
      * apply S2 in H. exists f. destruct H as (-> & H). cbn. auto.
      * exists g. rewrite <- S1 by exact Hg. cbn. auto.
    + intros (g & -> & [<-|Hg] & A & B); [left; apply S2; auto|]. right. exists g. rewrite S1 by exact Hg. auto.
Qed.

Lemma least_spec : forall l a, let r := fold_left (fun a (x : face * orec) => match o_nack (snd x) with Some y => if less_severe y a then y else a | None => a end) l a in
  least_reason (fun y => y = a \/ exists g x, In (g, x) l /\ o_nack x = Some y) r.
Proof.
  induction l as [|[g x] l IH]; intros a; cbn [fold_left].
  - cbn. unfold least_reason. destruct (Z.eq_dec a 0) as [->|N].
    + right. split; [reflexivity|]. intros y [->|(g & x & [] & _)]. reflexivity.
    + left. split; [auto|]. split; [exact N|]. intros y [->|(g & x & [] & _)] _. lia.
  - cbn [snd]. cbn zeta in IH. destruct (o_nack x) as [y|] eqn:Ny.
    + specialize (IH (if less_severe y a then y else a)). set (r := fold_left _ l _) in *. clearbody r.
      unfold less_severe in IH. unfold least_reason in *.
      assert (Hl : forall z, (exists g0 x0, In (g0, x0) l /\ o_nack x0 = Some z) -> exists g0 x0, In (g0, x0) ((g, x) :: l) /\ o_nack x0 = Some z).
      { intros z (g0 & x0 & H & K). exists g0, x0. cbn. auto. }
      assert (Hy : exists g0 x0, In (g0, x0) ((g, x) :: l) /\ o_nack x0 = Some y) by (exists g, x; cbn; auto).
      assert (Hs : forall z, (exists g0 x0, In (g0, x0) ((g, x) :: l) /\ o_nack x0 = Some z) -> z = y \/ exists g0 x0, In (g0, x0) l /\ o_nack x0 = Some z).
      { intros z (g0 & x0 & [H|H] & K); [injection H as <- <-; left; congruence|right; exists g0, x0; auto]. }
      destruct IH as [(A & B & C)|(A & B)].
      * left. split; [|split; [exact B|]].
        { destruct A as [->|A]; [|right; apply Hl, A]. destruct (y =? 0); [left; reflexivity|]. destruct (a =? 0); [right; exact Hy|]. destruct (y <? a); [right; exact Hy|left; reflexivity]. }
        intros z Hz Nz. assert (C1 : r <= (if y =? 0 then a else if a =? 0 then y else if y <? a then y else a) \/ (y = 0 /\ a = 0)).
        { destruct (y =? 0) eqn:Y0; [apply Z.eqb_eq in Y0|apply Z.eqb_neq in Y0].
          - destruct (Z.eq_dec a 0); [right; auto|left; apply C; auto].
          - destruct (a =? 0) eqn:A0; [left; apply C; auto|apply Z.eqb_neq in A0]. left. destruct (y <? a); apply C; auto. }
        assert (Cz : z = a \/ z = y -> r <= z).
        { intros Ez. destruct C1 as [C1|[-> ->]]; [|destruct Ez; congruence].
          destruct (Z.eqb_spec y 0), (Z.eqb_spec a 0), (Z.ltb_spec y a), Ez; subst; try congruence; lia. }
        destruct Hz as [->|Hz]; [apply Cz; auto|]. apply Hs in Hz. destruct Hz as [->|Hz]; [apply Cz; auto|]. apply C; auto.
      * right. split; [exact A|]. pose proof (B _ (or_introl eq_refl)) as B0.
        assert (Ya : y = 0 /\ a = 0). { destruct (Z.eqb_spec y 0), (Z.eqb_spec a 0), (Z.ltb_spec y a); subst; try lia; auto; contradiction. }
        intros z [->|Hz]; [apply Ya|]. apply Hs in Hz. destruct Hz as [->|Hz]; [apply Ya|]. apply B. auto.
    + specialize (IH a). set (r := fold_left _ l _) in *. clearbody r. unfold least_reason in *.
      assert (Q : forall z, (z = a \/ exists g0 x0, In (g0, x0) ((g, x) :: l) /\ o_nack x0 = Some z) <-> (z = a \/ exists g0 x0, In (g0, x0) l /\ o_nack x0 = Some z)).
      { intros z. split; (intros [H|(g0 & x0 & H & K)]; [left; exact H|]); [|right; exists g0, x0; cbn; auto].
        destruct H as [H|H]; [injection H as <- <-; congruence|]. right. exists g0, x0. auto. }
      destruct IH as [(A & B & C)|(A & B)]; [left|right].
      * split; [apply Q, A|]. split; [exact B|]. intros z Hz. apply C, Q, Hz.
      * split; [exact A|]. intros z Hz. apply B, Q, Hz.
Qed.
End Node.

(** To check an order. *)
Fixpoint ordered_b (l : list pop) : bool :=
  match l with [] => true | o :: r => forallb (fun o' => pop_time o <=? pop_time o') r && ordered_b r end.
Lemma ordered_in_order l : ordered_b l = true -> in_order l.
Proof.
  intros H a o b o' c E. subst l. induction a as [|x a IH]; cbn in H; apply andb_true_iff in H; destruct H as [H K].
  - rewrite forallb_forall in H. apply Z.leb_le. apply H. apply in_or_app. right. left. reflexivity.
  - exact (IH K).
Qed.

(** To check that somebody waits, among some faces. *)
Fixpoint wanted_from (fs : list face) (w : face -> option Z) (tr : trace) : bool :=
  match tr with
  | [] => true
  | x :: r => existsb (fun g => match w g with Some y => pop_time (fst x) <? y | None => false end) fs && wanted_from fs (next_waiting w x) r
  end.
Lemma wanted_check fs x tr : wanted_from fs (next_waiting (fun _ => None) x) tr = true -> wanted (x :: tr).
Proof.
  intros H a y b E Na. destruct a as [|x' a]; [congruence|]. cbn in E. injection E as <- E. unfold waits, waiting. cbn [fold_left].
  revert H. generalize (next_waiting (fun _ => None) x). clear Na. revert tr E. induction a as [|z a IH]; intros tr E w H.
  - cbn in E. subst tr. cbn in H. apply andb_true_iff in H. destruct H as [H _]. apply existsb_exists in H. destruct H as (g & _ & H).
    exists g. cbn. destruct (w g) as [v|]; [|discriminate]. exists v. split; [reflexivity|]. apply Z.ltb_lt, H.
  - destruct tr as [|q tr]; [discriminate|]. cbn in E. injection E as -> E. cbn in H. apply andb_true_iff in H. cbn. apply (IH tr E). apply H.
Qed.
