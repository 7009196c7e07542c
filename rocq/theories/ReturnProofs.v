From Coq Require Import ZArith List Bool Lia Arith.
From Verif Require Import Base SatAddrModel ConstellationModel GeoTagModel GeoTagSpec GeoTagProofs PendingModel PendingSpec PendingProofs ReturnModel ReturnSpec.
Import ListNotations.
Open Scope Z_scope.

Lemma in_some : forall (A : Type) f (x : A) l, In (f, x) l -> record_of f l <> None.
Proof.
  induction l as [|[g y] l IH]; intros H; [destruct H|]. cbn. destruct (face_eqb g f) eqn:E; [discriminate|].
  destruct H as [H|H]; [injection H as -> ->; rewrite face_refl in E; discriminate|auto].
Qed.
Lemma some_in : forall (A : Type) f (l : list (face * A)), record_of f l <> None -> exists x, In (f, x) l.
Proof. intros A f l H. destruct (record_of f l) as [x|] eqn:E; [|congruence]. exists x. apply of_in, E. Qed.

Lemma take_spec : forall (A : Type) i (l : list A) x r, take_out i l = Some (x, r) ->
  exists a b, l = a ++ x :: b /\ r = a ++ b.
Proof.
  induction i as [|i IH]; intros [|y l] x r H; cbn in H; try discriminate.
  - injection H as -> ->. exists [], r. auto.
  - destruct (take_out i l) as [[z r']|] eqn:E; [|discriminate]. cbn in H. injection H as -> <-. destruct (IH _ _ _ E) as (a & b & -> & ->).
    exists (y :: a), b. auto.
Qed.

Section Tree.
Variable nw : network.
Variable h : host.
Variable nh : nat -> list face.
Variable scope : face -> bool.
Variable tag : Z * Z * Z.
Variable sats : list nat.
Variable target : nat.
Variable dist : nat -> Z.
Variable join : nat -> nat -> nat -> Prop.
Hypothesis scope_free : forall g, scope g = false.
Hypothesis target_in : In target sats.
Hypothesis dist_pos : forall n, In n sats -> 0 <= dist n.
Hypothesis join_sym : forall k n m, join k n m -> join k m n.
Hypothesis join_remote : forall k n m, In n sats -> join k n m -> remote_node nw n (IslFace k) = Ok m.

(** Faces on which Interests come: from the ground, or from a satellite farther away from the target. *)
Definition from_far (n : nat) (f : face) : Prop :=
  f = GroundFace \/ exists k m, f = IslFace k /\ join k n m /\ In m sats /\ dist n < dist m.

Hypothesis react : forall n f rq, In n sats -> from_far n f -> rq_tag rq = Some tag -> rq_ingress rq = f -> rq_sup rq <> SUPPRESS ->
  (forall g, rq_scope rq g = false) ->
  (n = target /\ after_receive_interest nw h n (nh n) rq = Ok [SendInterest GroundFace]) \/
  (n <> target /\ exists k m, after_receive_interest nw h n (nh n) rq = Ok [SendInterest (IslFace k)] /\ join k n m /\ In m sats /\ dist m < dist n).

Variables t0 life : Z.

Lemma join_fun : forall k n m m', In n sats -> join k n m -> join k n m' -> m = m'.
Proof. intros k n m m' H A B. apply join_remote in A; auto. apply join_remote in B; auto. congruence. Qed.

Definition whole (n : nat) (e : entry) : Prop :=
  t0 + life <= e_end e /\ forall f x, In (f, x) (e_in e) -> t0 + life <= x /\ from_far n f.

Definition covered (s : rstate) (n : nat) : Prop :=
  exists k m, join k n m /\ In m sats /\ dist m < dist n /\
    ((exists l, In (mkFl k m (PAsk l)) (rs_air s)) \/
     (exists e, rs_pit s m = Some e /\ record_of (IslFace k) (e_in e) <> None) \/
     In (mkFl k n PData) (rs_air s)).

Definition sound (f : flight) : Prop :=
  In (fl_to f) sats /\ exists m, join (fl_chan f) (fl_to f) m /\ In m sats /\
    match fl_what f with PAsk l => life <= l /\ dist (fl_to f) < dist m | PData => dist m < dist (fl_to f) | PNack _ => False end.

Record rinv (s : rstate) (tr : rlog) : Prop := mkRInv {
  i_now : t0 <= rs_now s < t0 + life;
  i_sats : forall n e, rs_pit s n = Some e -> In n sats /\ whole n e;
  i_cover : forall n e, rs_pit s n = Some e -> n <> target -> covered s n;
  i_air : forall f, In f (rs_air s) -> sound f;
  i_wait : forall n, waits_below tr n = true <-> exists e, rs_pit s n = Some e /\ record_of GroundFace (e_in e) <> None }.

Notation step := (fun n => pit_step nw h n (nh n) scope).

Lemma ask_ok : forall n f t l p, In n sats -> from_far n f -> t0 <= t < t0 + life -> life <= l -> (forall e, p = Some e -> whole n e) ->
  exists e' ev, step n p (Ask t f (Some tag) l) = Ok (Some e', ev) /\ whole n e' /\
    (forall g, record_of g (e_in e') = if face_eqb f g then Some (t + l) else match p with Some e => record_of g (e_in e) | None => None end) /\
    (length (e_in e') <= S (match p with Some e => length (e_in e) | None => 0 end))%nat /\
    ((ev = [] /\ p <> None) \/ (n = target /\ ev = [ASent GroundFace (Some tag)]) \/
     (n <> target /\ exists k m, ev = [ASent (IslFace k) (Some tag)] /\ join k n m /\ In m sats /\ dist m < dist n)).
Proof.
  intros n f t l p Hn Hf Ht Hl Hp.
  assert (Ea : at_time t p = p).
  { destruct p as [e|]; [|reflexivity]. cbn. destruct (Hp e eq_refl) as [He _]. destruct (Z.ltb_spec t (e_end e)); [reflexivity|lia]. }
  set (e0 := asked t p f l).
  assert (In0 : e_in e0 = record_put f (t + l) (match p with Some e => e_in e | None => [] end)).
  { unfold e0, asked, entry_at. rewrite Ea. destruct p; reflexivity. }
  assert (Rec : forall g, record_of g (e_in e0) = if face_eqb f g then Some (t + l) else match p with Some e => record_of g (e_in e) | None => None end).
  { intros g. rewrite In0, put_of. destruct p; reflexivity. }
  assert (Len : (length (e_in e0) <= S (match p with Some e => length (e_in e) | None => 0 end))%nat).
  { rewrite In0. assert (Q : forall (x : Z) r, (length (record_put f x r) <= S (length r))%nat).
    { intros x r. induction r as [|[g y] r IH]; cbn; [lia|]. destruct (face_eqb g f); cbn; lia. }
    specialize (Q (t + l) (match p with Some e => e_in e | None => [] end)). destruct p; cbn in *; exact Q. }
  assert (W0 : whole n e0).
  { split.
    - unfold e0, asked. cbn [e_end]. destruct (latest_spec (map snd (record_put f (t + l) (e_in (entry_at t p))))) as [_ U].
      + intros K. apply map_eq_nil in K. pose proof (put_here f (t + l) (e_in (entry_at t p))) as X. rewrite K in X. destruct X.
      + apply Z.le_trans with (t + l); [lia|]. apply U. apply in_map_iff. exists (f, t + l). split; [reflexivity|apply put_here].
    - intros g x Hg. rewrite In0 in Hg. apply put_in in Hg. destruct Hg as [Hg|Hg].
      + injection Hg as -> ->. split; [lia|exact Hf].
      + destruct p as [e|]; [|destruct Hg]. destruct (Hp e eq_refl) as [_ B]. apply B, Hg. }
  cbv beta. rewrite ask_step. fold e0. destruct (retx_decide t e0) as [sup e2] eqn:De. destruct (decide_keeps _ _ _ _ De) as (K1 & K2 & K3).
  cbn [fst snd]. unfold request_of. cbn [fst snd].
  assert (W2 : whole n e2) by (unfold whole; rewrite K1, K3; exact W0). rewrite <- K1 in Rec, Len.
  destruct sup eqn:Es; [| |].
  1,2: match goal with |- context [after_receive_interest _ _ _ _ ?rq] =>
    destruct (react n f rq Hn Hf eq_refl eq_refl ltac:(discriminate) scope_free) as [(En & A)|(En & k & m & A & J & Hm & D)] end; rewrite A; cbn [rbind do_acts one_act app].
  1-4: eexists; eexists; (split; [reflexivity|]); (split; [exact W2|]); (split; [exact Rec|]); (split; [exact Len|]); right; first [left; split; [exact En|reflexivity]|right; split; [exact En|exists k, m; auto]].
  exists e2, []. cbn. split; [reflexivity|]. split; [exact W2|]. split; [exact Rec|]. split; [exact Len|]. left. split; [reflexivity|].
  intros ->. unfold retx_decide in De. assert (So : still_out t e0 = false) by reflexivity. rewrite So in De. discriminate De.
Qed.

Lemma answer_ok : forall n f t p, t0 <= t < t0 + life -> (forall e, p = Some e -> whole n e) ->
  exists ev, step n p (Answer t f) = Ok (None, ev) /\
    (forall v, In v ev <-> exists e g, p = Some e /\ v = AData g /\ record_of g (e_in e) <> None /\ (g <> f \/ g = GroundFace)) /\
    (length ev <= match p with Some e => length (e_in e) | None => 0 end)%nat.
Proof.
  intros n f t p Ht Hp. cbn [pit_step].
  assert (Ea : at_time t p = p).
  { destruct p as [e|]; [|reflexivity]. cbn. destruct (Hp e eq_refl) as [He _]. destruct (Z.ltb_spec t (e_end e)); [reflexivity|lia]. }
  rewrite Ea. destruct p as [e|].
  - eexists. split; [reflexivity|]. split.
    + intros v. unfold data_to. rewrite in_map_iff. split.
      * intros ([g x] & <- & H). apply filter_In in H. destruct H as [H1 H2]. exists e, g. split; [reflexivity|]. split; [reflexivity|].
        split; [eapply in_some, H1|]. apply andb_prop in H2. destruct H2 as [_ H2]. cbn [fst] in H2. apply negb_true_iff in H2.
        destruct (face_eqb g f) eqn:Eg; [|left; intros ->; rewrite face_refl in Eg; discriminate].
        right. apply same_face in Eg. subst g. cbn in H2. destruct f; try discriminate. reflexivity.
      * intros (e1 & g & E1 & -> & H & Hg). injection E1 as <-. apply some_in in H. destruct H as (x & H). exists (g, x). split; [reflexivity|].
        apply filter_In. split; [exact H|]. cbn [fst snd]. destruct (Hp e eq_refl) as [_ B]. destruct (B g x H) as [Lx _].
        apply andb_true_intro. split; [apply Z.ltb_lt; lia|]. apply negb_true_iff.
        destruct (face_eqb g f) eqn:Eg; [|reflexivity]. apply same_face in Eg. subst g. destruct Hg as [Hg|Hg]; [congruence|]. rewrite Hg. reflexivity.
    + unfold data_to. rewrite map_length. generalize (e_in e). intros r. clear. induction r as [|x r IH]; [cbn; lia|]. cbn [filter]. destruct (_ && _); cbn [length] in *; lia.
  - exists []. split; [reflexivity|]. split; [|cbn; lia]. intros v. split; [intros []|]. intros (e & g & E & _). discriminate.
Qed.

(** What leaves as Data arrives at the neighbours. *)
Lemma emit_data : forall n l ev, In n sats -> (forall v, In v ev -> exists g, v = AData g /\ from_far n g) ->
  exists new, emit_all nw n l ev = Ok new /\ (length new <= length ev)%nat /\
    forall x, In x new <-> exists k m, In (AData (IslFace k)) ev /\ join k n m /\ x = mkFl k m PData.
Proof.
  intros n l ev Hn. induction ev as [|v ev IH]; intros H.
  - exists []. split; [reflexivity|]. split; [cbn; lia|]. intros x. split; [intros []|]. intros (k & m & [] & _).
  - destruct IH as (new & E & L & F); [intros w Hw; apply H; right; exact Hw|]. destruct (H v (or_introl eq_refl)) as (g & -> & [->|(k & m & -> & J & _)]).
    + exists new. cbn [emit_all emit rbind app]. rewrite E. split; [reflexivity|]. split; [cbn; lia|]. intros x. rewrite F. split.
      * intros (k & m & A & B). exists k, m. split; [right; exact A|exact B].
      * intros (k & m & [A|A] & B); [discriminate|]. exists k, m. auto.
    + exists (mkFl k m PData :: new). cbn [emit_all emit]. rewrite (join_remote k n m Hn J). cbn [rbind]. rewrite E. cbn [rbind app].
      split; [reflexivity|]. split; [cbn [length]; lia|]. intros x. cbn [In]. rewrite F. split.
      * intros [<-|(k' & m' & A & B)]; [exists k, m; auto|exists k', m'; auto].
      * intros (k' & m' & [A|A] & J' & ->); [|right; exists k', m'; auto].
        injection A as ->. rewrite (join_fun k' n m' m Hn J' J). left; reflexivity.
Qed.

Lemma waits_more : forall tr x n, waits_below (tr ++ [x]) n = if serves n x then false else asks n x || waits_below tr n.
Proof. intros. unfold waits_below. rewrite fold_left_app. reflexivity. Qed.

Lemma put_pit_at : forall n e p, put_pit n e p n = e.
Proof. intros. unfold put_pit. rewrite Nat.eqb_refl. reflexivity. Qed.
Lemma put_pit_other : forall n e p m, m <> n -> put_pit n e p m = p m.
Proof. intros n e p m H. unfold put_pit. apply Nat.eqb_neq in H. rewrite H. reflexivity. Qed.

(** An Interest is received, from the ground or from what was on the way. *)
Lemma keep_ask : forall s tr air n f t l, rinv s tr -> In n sats -> from_far n f -> rs_now s <= t -> t0 <= t < t0 + life -> life <= l ->
  (forall x, In x air -> In x (rs_air s)) ->
  (forall x, In x (rs_air s) -> In x air \/ exists k, f = IslFace k /\ x = mkFl k n (PAsk l)) ->
  exists s' x, at_node nw h nh scope s air n (Ask t f (Some tag) l) = Ok (s', x) /\ rinv s' (tr ++ [x]) /\ quiet x /\
    (forall m, serves m x = false) /\ rs_now s' = t /\
    (exists new e', rs_air s' = air ++ new /\ rs_pit s' = put_pit n (Some e') (rs_pit s) /\
      (length (e_in e') <= S (match rs_pit s n with Some e => length (e_in e) | None => 0 end))%nat /\
      (new = [] \/ exists k m, new = [mkFl k m (PAsk l)] /\ In m sats /\ dist m < dist n)).
Proof.
  intros s tr air n f t l I Hn Hf Hnow Ht Hl A1 A2. pose proof I as [I1 I2 I3 I4 I5].
  destruct (ask_ok n f t l (rs_pit s n) Hn Hf Ht Hl (fun e E => proj2 (I2 n e E))) as (e' & ev & St & W & Rec & Len & Ev).
  assert (Em : exists new, emit_all nw n l ev = Ok new /\
    ((new = [] /\ (rs_pit s n <> None \/ n = target)) \/ (exists k m, new = [mkFl k m (PAsk l)] /\ join k n m /\ In m sats /\ dist m < dist n))).
  { destruct Ev as [(-> & P)|[(-> & ->)|(Nt & k & m & -> & J & Hm & D)]].
    - exists []. auto.
    - exists []. auto.
    - exists [mkFl k m (PAsk l)]. cbn [emit_all emit]. rewrite (join_remote k n m Hn J). cbn. split; [reflexivity|]. right. exists k, m. auto. }
  destruct Em as (new & Em & New). unfold at_node. rewrite St. cbn [rbind]. rewrite Em. cbn [rbind pop_time].
  eexists. eexists. split; [reflexivity|]. split; [|split; [|split; [|split; [reflexivity|]]]].
  - constructor; cbn [rs_now rs_pit rs_air].
    + exact Ht.
    + intros n' e. unfold put_pit. destruct (Nat.eqb_spec n' n) as [->|N]; [intros E; injection E as <-; auto|apply I2].
    + intros n' e E Nt.
      assert (Old : rs_pit s n' <> None -> covered (mkRS t (put_pit n (Some e') (rs_pit s)) (air ++ new)) n').
      { intros P. destruct (rs_pit s n') as [eo|] eqn:Eo; [|congruence]. destruct (I3 n' eo Eo Nt) as (k & m & J & Hm & D & C). exists k, m.
        split; [exact J|]. split; [exact Hm|]. split; [exact D|]. cbn [rs_pit rs_air].
        assert (Hn' : In n' sats) by (apply (I2 n' eo Eo)).
        destruct C as [(l' & C)|[(e1 & C1 & C2)|C]].
        - destruct (A2 _ C) as [C'|(k' & -> & C')]; [left; exists l'; apply in_or_app; auto|].
          injection C' as -> -> _. right. left. exists e'. rewrite put_pit_at. split; [reflexivity|]. rewrite Rec, face_refl. discriminate.
        - right. left. destruct (Nat.eq_dec m n) as [->|Nm].
          + exists e'. rewrite put_pit_at. split; [reflexivity|]. rewrite Rec, C1. destruct (face_eqb f (IslFace k)); [discriminate|exact C2].
          + exists e1. rewrite put_pit_other by exact Nm. auto.
        - right. right. destruct (A2 _ C) as [C'|(k' & _ & C')]; [apply in_or_app; auto|discriminate]. }
      destruct (Nat.eq_dec n' n) as [->|N].
      * destruct (rs_pit s n) as [eo|] eqn:Eo; [apply Old; rewrite ?Eo; discriminate|].
        destruct New as [(_ & [X|X])|(k & m & -> & J & Hm & D)]; [congruence|congruence|].
        exists k, m. split; [exact J|]. split; [exact Hm|]. split; [exact D|]. left. exists l. cbn [rs_air]. apply in_or_app. right. left. reflexivity.
      * apply Old. rewrite put_pit_other in E by exact N. congruence.
    + intros x Hx. apply in_app_or in Hx. destruct Hx as [Hx|Hx]; [apply I4, A1, Hx|].
      destruct New as [(-> & _)|(k & m & -> & J & Hm & D)]; [destruct Hx|]. destruct Hx as [<-|[]]. split; [exact Hm|].
      exists n. cbn [fl_chan fl_to fl_what]. auto.
    + intros n'. rewrite waits_more. assert (Ns : serves n' (n, Ask t f (Some tag) l, ev) = false).
      { unfold serves. cbn [fst snd]. destruct Ev as [(-> & _)|[(_ & ->)|(_ & k & m & -> & _)]]; cbn; apply andb_false_r. }
      rewrite Ns. unfold asks. cbn [fst snd]. destruct (Nat.eqb_spec n n') as [<-|N]; cbn [andb].
      * rewrite put_pit_at. destruct (face_eqb f GroundFace) eqn:Ef.
        -- apply same_face in Ef. subst f. cbn [orb]. split; [intros _; exists e'; split; [reflexivity|]; rewrite Rec; discriminate|reflexivity].
        -- assert (Q : match f with GroundFace => true | _ => false end = false) by (destruct f; (reflexivity || discriminate)). rewrite Q. cbn [orb].
           rewrite I5. split; intros (e & E1 & E2).
           ++ exists e'. split; [reflexivity|]. rewrite Rec, Ef, E1. exact E2.
           ++ injection E1 as <-. rewrite Rec, Ef in E2. destruct (rs_pit s n) as [eo|]; [exists eo; auto|congruence].
      * cbn [orb]. rewrite put_pit_other by congruence. apply I5.
  - intros v Hv. cbn [snd] in Hv. destruct Ev as [(-> & _)|[(_ & ->)|(_ & k & m & -> & _)]]; [destruct Hv|destruct Hv as [<-|[]]; exact Logic.I..].
  - intros m. unfold serves. cbn [fst snd]. destruct Ev as [(-> & _)|[(_ & ->)|(_ & k & m' & -> & _)]]; cbn; apply andb_false_r.
  - exists new, e'. split; [reflexivity|]. split; [reflexivity|]. split; [exact Len|]. destruct New as [(-> & _)|(k & m & -> & _ & Hm & D)]; [left; reflexivity|right; exists k, m; auto].
Qed.

(** Data is received. *)
Lemma keep_data : forall s tr air n f t, rinv s tr -> In n sats -> rs_now s <= t -> t0 <= t < t0 + life ->
  (f = GroundFace \/ exists k m, f = IslFace k /\ join k n m /\ dist m < dist n) ->
  (forall x, In x air -> In x (rs_air s)) ->
  (forall x, In x (rs_air s) -> In x air \/ exists k, f = IslFace k /\ x = mkFl k n PData) ->
  exists s' x, at_node nw h nh scope s air n (Answer t f) = Ok (s', x) /\ rinv s' (tr ++ [x]) /\ quiet x /\
    (forall m, serves m x = true -> waits_below tr m = true) /\ rs_now s' = t /\
    (exists new, rs_air s' = air ++ new /\ rs_pit s' = put_pit n None (rs_pit s) /\
      (length new <= match rs_pit s n with Some e => length (e_in e) | None => 0 end)%nat /\ Forall (fun x => fl_what x = PData) new).
Proof.
  intros s tr air n f t I Hn Hnow Ht Hf A1 A2. pose proof I as [I1 I2 I3 I4 I5].
  destruct (answer_ok n f t (rs_pit s n) Ht (fun e E => proj2 (I2 n e E))) as (ev & St & Ev & Len).
  destruct (emit_data n 0 ev Hn) as (new & Em & Ln & New).
  { intros v Hv. apply Ev in Hv. destruct Hv as (e & g & E & -> & Hg & _). exists g. split; [reflexivity|]. apply some_in in Hg. destruct Hg as (x & Hg).
    destruct (I2 n e E) as [_ [_ W]]. apply (W g x Hg). }
  unfold at_node. rewrite St. cbn [rbind]. rewrite Em. cbn [rbind pop_time].
  assert (Sv : forall m, serves m (n, Answer t f, ev) = true <-> m = n /\ exists e, rs_pit s n = Some e /\ record_of GroundFace (e_in e) <> None).
  { intros m. unfold serves. cbn [fst snd]. rewrite andb_true_iff, Nat.eqb_eq, existsb_exists. split.
    - intros (-> & v & Hv & Q). split; [reflexivity|]. apply Ev in Hv. destruct Hv as (e & g & E & -> & Hg & _). destruct g; try discriminate. exists e. auto.
    - intros (-> & e & E & Hg). split; [reflexivity|]. exists (AData GroundFace). split; [|reflexivity]. apply Ev. exists e, GroundFace. auto. }
  eexists. eexists. split; [reflexivity|]. split; [|split; [|split; [|split; [reflexivity|]]]].
  - constructor; cbn [rs_now rs_pit rs_air].
    + exact Ht.
    + intros n' e. unfold put_pit. destruct (Nat.eqb_spec n' n) as [->|N]; [discriminate|apply I2].
    + intros n' e E Nt. destruct (Nat.eq_dec n' n) as [->|N]; [rewrite put_pit_at in E; discriminate|]. rewrite put_pit_other in E by exact N.
      destruct (I3 n' e E Nt) as (k & m & J & Hm & D & C). exists k, m. split; [exact J|]. split; [exact Hm|]. split; [exact D|]. cbn [rs_pit rs_air].
      destruct C as [(l' & C)|[(e1 & C1 & C2)|C]].
      * left. exists l'. destruct (A2 _ C) as [C'|(k' & _ & C')]; [apply in_or_app; auto|discriminate].
      * destruct (Nat.eq_dec m n) as [->|Nm]; [|right; left; exists e1; rewrite put_pit_other by exact Nm; auto].
        right. right. apply in_or_app. right. apply New. exists k, n'. split; [|split; [apply join_sym, J|reflexivity]].
        apply Ev. exists e1, (IslFace k). split; [exact C1|]. split; [reflexivity|]. split; [exact C2|]. left. intros Ek.
        destruct Hf as [Hf|(k' & m' & Hf & J' & D')]; [congruence|]. rewrite Hf in Ek. injection Ek as ->.
        rewrite (join_fun k' n m' n' Hn J' (join_sym _ _ _ J)) in D'. lia.
      * right. right. destruct (A2 _ C) as [C'|(k' & _ & C')]; [apply in_or_app; auto|]. injection C' as _ C'. congruence.
    + intros x Hx. apply in_app_or in Hx. destruct Hx as [Hx|Hx]; [apply I4, A1, Hx|]. apply New in Hx. destruct Hx as (k & m & Hk & J & ->).
      apply Ev in Hk. destruct Hk as (e & g & E & Q & Hg & _). injection Q as <-. apply some_in in Hg. destruct Hg as (y & Hg).
      destruct (I2 n e E) as [_ [_ W]]. destruct (W _ _ Hg) as [_ [Fa|(k' & m' & Fa & J' & Hm & D)]]; [discriminate|]. injection Fa as <-.
      rewrite (join_fun k n m m' Hn J J'). split; [exact Hm|]. exists n. cbn [fl_chan fl_to fl_what]. auto.
    + intros n'. rewrite waits_more. destruct (serves n' (n, Answer t f, ev)) eqn:Es.
      * apply Sv in Es. destruct Es as [-> _]. rewrite put_pit_at. split; [discriminate|]. intros (e & E & _). discriminate.
      * unfold asks. cbn [fst snd]. rewrite andb_false_r. cbn [orb]. rewrite I5. destruct (Nat.eq_dec n' n) as [->|N].
        -- rewrite put_pit_at. split; [|intros (e & E & _); discriminate]. intros (e & E & Hg).
           assert (X : serves n (n, Answer t f, ev) = true) by (apply Sv; eauto). congruence.
        -- rewrite put_pit_other by exact N. reflexivity.
  - intros v Hv. cbn [snd] in Hv. apply Ev in Hv. destruct Hv as (e & g & _ & -> & _). exact Logic.I.
  - intros m Hm. apply Sv in Hm. destruct Hm as [-> He]. apply I5. exact He.
  - exists new. split; [reflexivity|]. split; [reflexivity|]. split; [lia|]. apply Forall_forall. intros x Hx. apply New in Hx. destruct Hx as (k & m & _ & _ & ->). reflexivity.
Qed.

Lemma keep_step : forall s tr o r, rinv s tr -> timely t0 life o -> at_sat sats o -> r_step nw h nh scope tag s o = Some r ->
  exists s' x, r = Ok (s', x) /\ rinv s' (tr ++ [x]) /\ quiet x /\ (forall m, serves m x = true -> waits_below tr m = true).
Proof.
  intros s tr o r I (Tm & Lf) Sa R. pose proof I as [I1 I2 I3 I4 I5]. destruct o as [t n l|t n|t i]; cbn [r_step op_time at_sat] in *.
  - destruct (Z.leb_spec (rs_now s) t); [|discriminate]. injection R as <-.
    destruct (keep_ask s tr (rs_air s) n GroundFace t l I Sa (or_introl eq_refl) H Tm Lf (fun x K => K) (fun x K => or_introl K)) as (s' & x & E & K1 & K2 & K3 & _).
    exists s', x. split; [exact E|]. split; [exact K1|]. split; [exact K2|]. intros m Hm. rewrite K3 in Hm. discriminate.
  - destruct (Z.leb_spec (rs_now s) t); [|discriminate]. injection R as <-.
    destruct (keep_data s tr (rs_air s) n GroundFace t I Sa H Tm (or_introl eq_refl) (fun x K => K) (fun x K => or_introl K)) as (s' & x & E & K1 & K2 & K3 & _).
    exists s', x. auto.
  - destruct (take_out i (rs_air s)) as [[f air]|] eqn:T; [|discriminate]. apply take_spec in T. destruct T as (a & b & Ea & ->).
    destruct (Z.leb_spec (rs_now s) t); [|discriminate]. injection R as <-.
    destruct (I4 f) as (Hn & m & J & Hm & Hw); [rewrite Ea; apply in_or_app; right; left; reflexivity|]. destruct f as [k n w]. cbn [fl_chan fl_to fl_what] in *.
    assert (A1 : forall x, In x (a ++ b) -> In x (rs_air s)).
    { intros x Hx. rewrite Ea. apply in_app_or in Hx. apply in_or_app. destruct Hx; [auto|right; right; auto]. }
    destruct w as [l| |]; [| |destruct Hw].
    + destruct Hw as [Hl D].
      destruct (keep_ask s tr (a ++ b) n (IslFace k) t l I Hn ltac:(right; eauto 8) H Tm Hl A1) as (s' & x & E & K1 & K2 & K3 & _).
      { intros x Hx. rewrite Ea in Hx. apply in_app_or in Hx. destruct Hx as [Hx|[<-|Hx]]; [left; apply in_or_app; auto|right; eauto|left; apply in_or_app; auto]. }
      exists s', x. split; [exact E|]. split; [exact K1|]. split; [exact K2|]. intros m' Hm'. rewrite K3 in Hm'. discriminate.
    + destruct (keep_data s tr (a ++ b) n (IslFace k) t I Hn H Tm ltac:(right; eauto) A1) as (s' & x & E & K1 & K2 & K3 & _).
      { intros x Hx. rewrite Ea in Hx. apply in_app_or in Hx. destruct Hx as [Hx|[<-|Hx]]; [left; apply in_or_app; auto|right; eauto|left; apply in_or_app; auto]. }
      exists s', x. auto.
Qed.

Lemma keep_run : forall ops s tr r, rinv s tr -> Forall (timely t0 life) ops -> Forall (at_sat sats) ops -> r_run nw h nh scope tag s ops = Some r ->
  exists s' tr', r = Ok (s', tr') /\ rinv s' (tr ++ tr') /\ Forall quiet tr' /\
    (forall a x b m, tr' = a ++ x :: b -> serves m x = true -> waits_below (tr ++ a) m = true).
Proof.
  induction ops as [|o ops IH]; intros s tr r I Ti Sa R; cbn [r_run] in R.
  - injection R as <-. exists s, []. rewrite app_nil_r. split; [reflexivity|]. split; [exact I|]. split; [constructor|]. intros [|? ?] ? ? ? X; discriminate X.
  - inversion Ti; subst. inversion Sa; subst. destruct (r_step nw h nh scope tag s o) as [r1|] eqn:E; [|discriminate].
    destruct (keep_step s tr o r1 I ltac:(assumption) ltac:(assumption) E) as (s1 & x & -> & I1 & Q1 & S1).
    destruct (r_run nw h nh scope tag s1 ops) as [r2|] eqn:E2; [|discriminate].
    destruct (IH s1 (tr ++ [x]) r2 I1 ltac:(assumption) ltac:(assumption) E2) as (s2 & tr2 & -> & I2 & Q2 & S2). injection R as <-.
    exists s2, (x :: tr2). split; [reflexivity|]. split; [rewrite <- app_assoc in I2; exact I2|]. split; [constructor; assumption|].
    intros [|y a] z b m X Hz; cbn in X; injection X as -> X; [rewrite app_nil_r; apply S1, Hz|].
    specialize (S2 a z b m X Hz). rewrite <- app_assoc in S2. exact S2.
Qed.

(** At rest nobody waits if the target does not. *)
Lemma rest_none : forall s tr, rinv s tr -> rs_air s = [] -> rs_pit s target = None -> forall n, rs_pit s n = None.
Proof.
  intros s tr I Ra Rt. assert (K : forall d n, In n sats -> dist n <= Z.of_nat d -> rs_pit s n = None).
  { induction d as [|d IH]; intros n Hn Hd; (destruct (rs_pit s n) as [e|] eqn:E; [|reflexivity]; exfalso;
      destruct (Nat.eq_dec n target) as [->|Nt]; [congruence|]; destruct (i_cover s tr I n e E Nt) as (k & m & J & Hm & D & C); pose proof (dist_pos m Hm)).
    - lia.
    - rewrite Ra in C. destruct C as [(l & [])|[(e1 & C & _)|[]]]. rewrite (IH m Hm) in C by lia. discriminate. }
  intros n. destruct (rs_pit s n) as [e|] eqn:E; [|reflexivity]. destruct (i_sats s tr I n e E) as [Hn _].
  pose proof (dist_pos n Hn). rewrite (K (Z.to_nat (dist n)) n Hn) in E by lia. discriminate.
Qed.

(** ** All comes to rest *)
Hypothesis sats_nodup : NoDup sats.

Definition load (f : flight) : nat := match fl_what f with PAsk _ => 3 * S (Z.to_nat (dist (fl_to f))) | _ => 1 end.
Definition hold (p : nat -> option entry) (n : nat) : nat := match p n with Some e => 2 * length (e_in e) | None => 0 end.
Definition sum (l : list nat) : nat := fold_right Nat.add 0%nat l.
Definition weight (s : rstate) : nat := sum (map load (rs_air s)) + sum (map (hold (rs_pit s)) sats).

Lemma sum_plus : forall a b, sum (a ++ b) = (sum a + sum b)%nat.
Proof. induction a as [|x a IH]; intros b; [reflexivity|]. cbn [app sum fold_right]. fold (sum (a ++ b)). fold (sum a). rewrite IH. lia. Qed.

Lemma sum_put : forall l n e p, NoDup l -> In n l ->
  (sum (map (hold (put_pit n e p)) l) + hold p n = sum (map (hold p) l) + match e with Some e => 2 * length (e_in e) | None => 0 end)%nat.
Proof.
  induction l as [|m l IH]; intros n e p ND Hn; [destruct Hn|]. inversion ND; subst. cbn [map sum fold_right].
  destruct (Nat.eq_dec m n) as [->|N].
  - assert (Eq : map (hold (put_pit n e p)) l = map (hold p) l).
    { apply map_ext_in. intros x Hx. unfold hold. rewrite put_pit_other; [reflexivity|congruence]. }
    rewrite Eq. unfold hold at 1. rewrite put_pit_at. fold (sum (map (hold p) l)). lia.
  - destruct Hn as [Hn|Hn]; [congruence|]. specialize (IH n e p ltac:(assumption) Hn). fold (sum (map (hold (put_pit n e p)) l)). fold (sum (map (hold p) l)).
    unfold hold at 1. rewrite put_pit_other by exact N. fold (hold p m). lia.
Qed.

Lemma move_less : forall s tr f air, rinv s tr -> rs_air s = f :: air -> exists s' x,
  r_step nw h nh scope tag s (RMove (rs_now s) 0) = Some (Ok (s', x)) /\ rinv s' (tr ++ [x]) /\ rs_now s' = rs_now s /\ (weight s' < weight s)%nat.
Proof.
  intros s tr f air I Ea. pose proof I as [I1 I2 I3 I4 I5]. cbn [r_step]. rewrite Ea. cbn [take_out]. rewrite Z.leb_refl.
  destruct (I4 f) as (Hn & m & J & Hm & Hw); [rewrite Ea; left; reflexivity|]. destruct f as [k n w]. cbn [fl_chan fl_to fl_what] in *.
  assert (A1 : forall x, In x air -> In x (rs_air s)) by (intros x Hx; rewrite Ea; right; exact Hx).
  destruct w as [l| |]; [| |destruct Hw].
  - destruct Hw as [Hl D].
    destruct (keep_ask s tr air n (IslFace k) (rs_now s) l I Hn ltac:(right; eauto 8) (Z.le_refl _) I1 Hl A1) as (s' & x & E & K1 & K2 & K3 & K4 & new & e' & N1 & N2 & N3 & N4).
    { intros x Hx. rewrite Ea in Hx. destruct Hx as [<-|Hx]; [right; eauto|left; exact Hx]. }
    exists s', x. split; [rewrite E; reflexivity|]. split; [exact K1|]. split; [exact K4|]. unfold weight. rewrite Ea, N1, N2, map_app, sum_plus. cbn [map sum fold_right]. fold (sum (map load air)).
    pose proof (sum_put sats n (Some e') (rs_pit s) sats_nodup Hn) as Q. cbv beta iota in Q.
    assert (Hh : (2 * length (e_in e') <= 2 + hold (rs_pit s) n)%nat) by (unfold hold; destruct (rs_pit s n); lia).
    assert (Hld : (sum (map load new) <= 3 * Z.to_nat (dist n))%nat).
    { destruct N4 as [->|(k' & m' & -> & Hm' & D')]; [cbn; lia|]. cbn [map sum fold_right]. unfold load. cbn [fl_what fl_to]. pose proof (dist_pos m' Hm'). lia. }
    assert (L0 : load (mkFl k n (PAsk l)) = (3 * S (Z.to_nat (dist n)))%nat) by reflexivity. rewrite L0. lia.
  - destruct (keep_data s tr air n (IslFace k) (rs_now s) I Hn (Z.le_refl _) I1 ltac:(right; eauto) A1) as (s' & x & E & K1 & K2 & K3 & K4 & new & N1 & N2 & N3 & N4).
    { intros x Hx. rewrite Ea in Hx. destruct Hx as [<-|Hx]; [right; eauto|left; exact Hx]. }
    exists s', x. split; [rewrite E; reflexivity|]. split; [exact K1|]. split; [exact K4|]. unfold weight. rewrite Ea, N1, N2, map_app, sum_plus. cbn [map sum fold_right]. fold (sum (map load air)).
    pose proof (sum_put sats n None (rs_pit s) sats_nodup Hn) as Q. cbv beta iota in Q.
    assert (Hld : sum (map load new) = length new).
    { clear - N4. induction N4 as [|y new Hy N4 IH]; [reflexivity|]. cbn [map sum fold_right length]. fold (sum (map load new)). rewrite IH. unfold load. rewrite Hy. reflexivity. }
    assert (L0 : load (mkFl k n PData) = 1%nat) by reflexivity. rewrite L0, Hld.
    assert (Hh : (length new <= hold (rs_pit s) n)%nat) by (unfold hold; destruct (rs_pit s n); lia). lia.
Qed.

Lemma to_rest : forall s tr, rinv s tr -> exists ops s' tr', Forall (fun o => o = RMove (rs_now s) 0) ops /\
  r_run nw h nh scope tag s ops = Some (Ok (s', tr')) /\ rs_air s' = [].
Proof.
  intros s tr. remember (weight s) as w eqn:W. revert s tr W. induction w as [w IH] using lt_wf_ind. intros s tr W I.
  destruct (rs_air s) as [|f air] eqn:Ea; [exists [], s, []; split; [constructor|]; split; [reflexivity|exact Ea]|].
  destruct (move_less s tr f air I Ea) as (s1 & x & E & I1 & N1 & L).
  destruct (IH (weight s1) ltac:(lia) s1 (tr ++ [x]) eq_refl I1) as (ops & s2 & tr2 & F & R & A).
  exists (RMove (rs_now s) 0 :: ops), s2, (x :: tr2). split; [constructor; [reflexivity|rewrite <- N1; exact F]|]. split; [|exact A]. cbn [r_run]. rewrite E, R. reflexivity.
Qed.

(** ** After the Data *)
Definition only_data (s : rstate) : Prop := rs_pit s target = None /\ Forall (fun f => fl_what f = PData) (rs_air s).

Lemma data_step : forall s tr t i s' x, rinv s tr -> only_data s -> timely t0 life (RMove t i) -> r_step nw h nh scope tag s (RMove t i) = Some (Ok (s', x)) -> only_data s'.
Proof.
  intros s tr t i s' x I (Rt & Fa) (Tm & _) R. pose proof I as [I1 I2 I3 I4 I5]. cbn [r_step op_time] in *.
  destruct (take_out i (rs_air s)) as [[f air]|] eqn:T; [|discriminate]. apply take_spec in T. destruct T as (a & b & Ea & ->).
  destruct (Z.leb_spec (rs_now s) t); [|discriminate]. rewrite Ea in Fa. apply Forall_app in Fa. destruct Fa as [Fa Fb]. inversion Fb as [|? ? Ff Fb']; subst.
  destruct (I4 f) as (Hn & m & J & Hm & Hw); [rewrite Ea; apply in_or_app; right; left; reflexivity|]. destruct f as [k n w]. cbn [fl_chan fl_to fl_what] in *. subst w.
  assert (A1 : forall x, In x (a ++ b) -> In x (rs_air s)).
  { intros y Hx. rewrite Ea. apply in_app_or in Hx. apply in_or_app. destruct Hx; [auto|right; right; auto]. }
  destruct (keep_data s tr (a ++ b) n (IslFace k) t I Hn H Tm ltac:(right; eauto) A1) as (s1 & y & E & _ & _ & _ & _ & new & N1 & N2 & _ & N4).
  { intros y Hx. rewrite Ea in Hx. apply in_app_or in Hx. destruct Hx as [Hx|[<-|Hx]]; [left; apply in_or_app; auto|right; eauto|left; apply in_or_app; auto]. }
  rewrite E in R. injection R as <- <-. split.
  - rewrite N2. unfold put_pit. destruct (target =? n)%nat; [reflexivity|exact Rt].
  - rewrite N1. apply Forall_app. split; [apply Forall_app; auto|exact N4].
Qed.

Lemma data_run : forall ops s tr s' tr', rinv s tr -> only_data s -> Forall (timely t0 life) ops -> Forall (fun o => exists t i, o = RMove t i) ops ->
  r_run nw h nh scope tag s ops = Some (Ok (s', tr')) -> only_data s'.
Proof.
  induction ops as [|o ops IH]; intros s tr s' tr' I Od Ti Mv R; cbn [r_run] in R; [injection R as <- <-; exact Od|].
  inversion Ti as [|? ? To Ti']; subst. inversion Mv as [|? ? Mo Mv']; subst. destruct Mo as (t & i & ->).
  destruct (r_step nw h nh scope tag s (RMove t i)) as [[[s1 x]| | |]|] eqn:E; try discriminate.
  destruct (keep_step s tr (RMove t i) _ I To Logic.I E) as (s1' & x' & Q & I1 & _). injection Q as <- <-.
  destruct (r_run nw h nh scope tag s1 ops) as [[[s2 tr2]| | |]|] eqn:E2; try discriminate. injection R as <- <-.
  exact (IH s1 _ s2 tr2 I1 (data_step s tr t i s1 x I Od To E) Ti' Mv' E2).
Qed.
End Tree.
