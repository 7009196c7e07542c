(** What is left of earlier Interests does not stand in the way of later ones. *)
From Coq Require Import ZArith List Bool Lia Arith.
From Verif Require Import Base SatAddrModel ConstellationModel GeoTagModel PendingModel PendingProofs ReturnModel ReturnSpec ReturnProofs TripModel TripSpec TripProofs RecoverModel RecoverSpec.
Import ListNotations.
Open Scope Z_scope.

Lemma sum_most : forall (A : Type) (f : A -> nat) c l, (forall x, In x l -> (f x <= c)%nat) -> (sum (map f l) <= c * List.length l)%nat.
Proof. induction l as [|x l IH]; intros H; [cbn; lia|]. cbn [map sum fold_right List.length]. fold (sum (map f l)). pose proof (H x (or_introl eq_refl)). pose proof (IH (fun y K => H y (or_intror K))). lia. Qed.
Lemma downs_most : forall stations n ev, (List.length (downs stations n ev) <= List.length stations * List.length ev)%nat.
Proof.
  intros stations n ev. induction ev as [|v ev IH]; [cbn; lia|]. unfold downs in *. cbn [flat_map List.length]. rewrite app_length.
  destruct v as [f tg|f r|f|]; try destruct f; cbn [List.length]; rewrite ?map_length; lia.
Qed.

(** At satellite [n] an Interest has come since the last Data; one has come there on face [f]. *)
Definition touch (tr : rlog) (n : nat) : bool :=
  fold_left (fun w x => if (fst (fst x) =? n)%nat then match snd (fst x) with Ask _ _ _ _ => true | Answer _ _ => false | Refuse _ _ _ => w end else w) tr false.
Definition pends (tr : rlog) (n : nat) (f : face) : bool :=
  fold_left (fun w x => if (fst (fst x) =? n)%nat then match snd (fst x) with Ask _ g _ _ => face_eqb g f || w | Answer _ _ => false | Refuse _ _ _ => w end else w) tr false.
Lemma touch_more : forall tr x n, touch (tr ++ [x]) n = if (fst (fst x) =? n)%nat then match snd (fst x) with Ask _ _ _ _ => true | Answer _ _ => false | Refuse _ _ _ => touch tr n end else touch tr n.
Proof. intros. unfold touch. rewrite fold_left_app. reflexivity. Qed.
Lemma pends_more : forall tr x n f, pends (tr ++ [x]) n f =
  if (fst (fst x) =? n)%nat then match snd (fst x) with Ask _ g _ _ => face_eqb g f || pends tr n f | Answer _ _ => false | Refuse _ _ _ => pends tr n f end else pends tr n f.
Proof. intros. unfold pends. rewrite fold_left_app. reflexivity. Qed.
Lemma pends_touch : forall tr n f, pends tr n f = true -> touch tr n = true.
Proof.
  intros tr n f. induction tr as [|x tr IH] using rev_ind; [discriminate|]. rewrite pends_more, touch_more. destruct (_ =? _)%nat; [|exact IH].
  destruct (snd (fst x)); [reflexivity|discriminate|exact IH].
Qed.

Section Calm.
Variable nw : network.
Variable h : host.
Variable nh : nat -> list face.
Variable scope : face -> bool.
Variable tag : Z * Z * Z.
Variable sats : list nat.
Variable target : nat.
Variable dist : nat -> Z.
Variable join : nat -> nat -> nat -> Prop.
Hypothesis scope_free : forall g, scope g = false.
Hypothesis dist_pos : forall n, In n sats -> 0 <= dist n.
Hypothesis join_sym : forall k n m, join k n m -> join k m n.
Hypothesis join_remote : forall k n m, In n sats -> join k n m -> remote_node nw n (IslFace k) = Ok m.
Hypothesis react : forall n f rq, In n sats -> from_far sats dist join n f -> rq_tag rq = Some tag -> rq_ingress rq = f -> rq_sup rq <> SUPPRESS ->
  (forall g, rq_scope rq g = false) ->
  (n = target /\ after_receive_interest nw h n (nh n) rq = Ok [SendInterest GroundFace]) \/
  (n <> target /\ exists k m, after_receive_interest nw h n (nh n) rq = Ok [SendInterest (IslFace k)] /\ join k n m /\ In m sats /\ dist m < dist n).
Variable stations : list nat.
Variable producer : nat.
Hypothesis here : In producer stations.

Notation far := (from_far sats dist join).
Notation step := (fun n => pit_step nw h n (nh n) scope).
Notation rstep := (r_step nw h nh scope tag).
Notation tstep := (t_step nw h nh scope tag stations producer).
Notation trun := (t_run nw h nh scope tag stations producer).
Notation lstep := (l_step nw h nh scope tag stations producer).
Notation lrun := (l_run nw h nh scope tag stations producer).

(** ** What is so at any time *)
(** An entry: who asked is farther away, the interval has its bound, nothing was sent later than now. *)
Definition mild (now : Z) (n : nat) (e : entry) : Prop :=
  (forall f x, In (f, x) (e_in e) -> far n f) /\ e_wait e <= retx_max /\ (forall f o, In (f, o) (e_out e) -> o_renewed o <= now).
Definition proper_flight (f : flight) : Prop :=
  In (fl_to f) sats /\ exists m, join (fl_chan f) (fl_to f) m /\ In m sats /\
    match fl_what f with PAsk _ => dist (fl_to f) < dist m | PData => dist m < dist (fl_to f) | PNack _ => False end.
Record calm (s : rstate) : Prop := mkCalm {
  c_pit : forall n e, rs_pit s n = Some e -> In n sats /\ mild (rs_now s) n e;
  c_air : forall f, In f (rs_air s) -> proper_flight f }.

Lemma one_far : forall k n m m', In n sats -> join k n m -> join k n m' -> m = m'.
Proof. intros k n m m' H A B. apply join_remote in A; auto. apply join_remote in B; auto. congruence. Qed.

Lemma ask_any : forall n f t l p now, In n sats -> far n f -> now <= t -> (forall e, p = Some e -> mild now n e) ->
  exists e' ev, step n p (Ask t f (Some tag) l) = Ok (Some e', ev) /\ mild t n e' /\ t + l <= e_end e' /\
    (forall g, record_of g (e_in e') = if face_eqb f g then Some (t + l) else match at_time t p with Some e => record_of g (e_in e) | None => None end) /\
    (List.length (e_in e') <= S (held p))%nat /\
    ((ev = [] /\ exists e g o, p = Some e /\ In (g, o) (e_out e) /\ t - o_renewed o < retx_max) \/ (n = target /\ ev = [ASent GroundFace (Some tag)]) \/
     (n <> target /\ exists k m, ev = [ASent (IslFace k) (Some tag)] /\ join k n m /\ In m sats /\ dist m < dist n)).
Proof.
  intros n f t l p now Hn Hf Ht Hp.
  set (q := at_time t p). assert (Hq : forall e, q = Some e -> p = Some e).
  { intros e. unfold q, at_time. destruct p as [e1|]; [|discriminate]. destruct (_ <? _); [auto|discriminate]. }
  set (e0 := asked t p f l).
  assert (In0 : e_in e0 = record_put f (t + l) (match q with Some e => e_in e | None => [] end)).
  { unfold e0, asked, entry_at. fold q. destruct q; reflexivity. }
  assert (Out0 : e_out e0 = match q with Some e => e_out e | None => [] end).
  { unfold e0, asked, entry_at. fold q. destruct q; reflexivity. }
  assert (Wait0 : e_wait e0 = match q with Some e => e_wait e | None => retx_initial end).
  { unfold e0, asked, entry_at. fold q. destruct q; reflexivity. }
  assert (Rec : forall g, record_of g (e_in e0) = if face_eqb f g then Some (t + l) else match q with Some e => record_of g (e_in e) | None => None end).
  { intros g. rewrite In0, put_of. destruct q; reflexivity. }
  assert (Len : (List.length (e_in e0) <= S (held p))%nat).
  { rewrite In0. assert (Q : forall (x : Z) r, (List.length (record_put f x r) <= S (List.length r))%nat).
    { intros x r. induction r as [|[g y] r IH]; cbn; [lia|]. destruct (face_eqb g f); cbn; lia. }
    specialize (Q (t + l) (match q with Some e => e_in e | None => [] end)). destruct q as [e|] eqn:Eq; [rewrite (Hq e eq_refl); exact Q|]. cbn in *. lia. }
  assert (End0 : t + l <= e_end e0).
  { unfold e0, asked. cbn [e_end]. destruct (latest_spec (map snd (record_put f (t + l) (e_in (entry_at t p))))) as [_ U].
    - intros K. apply map_eq_nil in K. pose proof (put_here f (t + l) (e_in (entry_at t p))) as X. rewrite K in X. destruct X.
    - apply U. apply in_map_iff. exists (f, t + l). split; [reflexivity|apply put_here]. }
  assert (M0 : mild t n e0).
  { split; [|split].
    - intros g x Hg. rewrite In0 in Hg. apply put_in in Hg. destruct Hg as [Hg|Hg]; [injection Hg as -> ->; exact Hf|].
      destruct q as [e|] eqn:Eq; [|destruct Hg]. destruct (Hp e (Hq e eq_refl)) as (B & _). apply (B g x Hg).
    - rewrite Wait0. destruct q as [e|] eqn:Eq; [|cbv; discriminate]. apply (Hp e (Hq e eq_refl)).
    - intros g o Hg. rewrite Out0 in Hg. destruct q as [e|] eqn:Eq; [|destruct Hg]. destruct (Hp e (Hq e eq_refl)) as (_ & _ & B). specialize (B g o Hg). lia. }
  cbv beta. rewrite ask_step. fold e0. destruct (retx_decide t e0) as [sup e2] eqn:De. destruct (decide_keeps _ _ _ _ De) as (K1 & K2 & K3).
  cbn [fst snd]. unfold request_of. cbn [fst snd].
  assert (M2 : mild t n e2).
  { destruct M0 as (A & B & C). unfold mild. rewrite K1, K2. split; [exact A|]. split; [|exact C].
    unfold retx_decide in De. destruct (still_out t e0); [destruct (_ <? _)|]; injection De as _ <-; first [exact B|apply Z.le_min_l]. }
  rewrite <- K1 in Rec, Len. rewrite <- K3 in End0.
  assert (M3 : forall g x, mild t n (mkE (e_in e2) (record_put g (mkO t x None) (e_out e2)) (e_wait e2) (e_end e2))).
  { intros g x. destruct M2 as (A & B & C). split; [exact A|]. split; [exact B|]. intros g' o Ho. cbn [e_out] in Ho. apply put_in in Ho.
    destruct Ho as [Ho|Ho]; [injection Ho as -> ->; cbn; lia|exact (C g' o Ho)]. }
  destruct sup eqn:Es; [| |].
  1,2: match goal with |- context [after_receive_interest _ _ _ _ ?rq] =>
    destruct (react n f rq Hn Hf eq_refl eq_refl ltac:(discriminate) scope_free) as [(En & A)|(En & k & m & A & J & Hm & D)] end; rewrite A; cbn [rbind do_acts one_act app].
  1-4: eexists; eexists; (split; [reflexivity|]); (split; [apply M3|]); (split; [exact End0|]); (split; [exact Rec|]); (split; [exact Len|]); right; first [left; split; [exact En|reflexivity]|right; split; [exact En|exists k, m; auto]].
  exists e2, []. cbn. split; [reflexivity|]. split; [exact M2|]. split; [exact End0|]. split; [exact Rec|]. split; [exact Len|]. left. split; [reflexivity|].
  unfold retx_decide in De. destruct (still_out t e0) eqn:So; [|discriminate]. destruct (Z.ltb_spec (t - latest (map (fun r => o_renewed (snd r)) (e_out e0))) (e_wait e0)) as [Lt|]; [|discriminate].
  destruct M0 as (_ & M0 & _). destruct q as [e|] eqn:Eq.
  - exists e. destruct (latest_spec (map (fun r => o_renewed (snd r)) (e_out e0))) as [U _].
    + intros K. apply map_eq_nil in K. unfold still_out in So. rewrite K in So. discriminate.
    + apply in_map_iff in U. destruct U as ([g o] & U1 & U2). cbn [snd] in U1. exists g, o. split; [apply Hq; reflexivity|]. rewrite Out0 in U2. split; [exact U2|]. change 250000000 with retx_max. lia.
  - unfold still_out in So. rewrite Out0 in So. discriminate.
Qed.

Lemma answer_any : forall n f t p now, (forall e, p = Some e -> mild now n e) ->
  exists ev, step n p (Answer t f) = Ok (None, ev) /\
    (forall v, In v ev -> exists e g x, p = Some e /\ v = AData g /\ In (g, x) (e_in e)) /\
    (forall e g x, p = Some e -> t < e_end e -> In (g, x) (e_in e) -> t < x -> (g <> f \/ g = GroundFace) -> In (AData g) ev) /\
    (List.length ev <= held p)%nat.
Proof.
  intros n f t p now Hp. cbn [pit_step]. destruct p as [e|]; cbn [at_time].
  - destruct (Z.ltb_spec t (e_end e)) as [Lt|Ge].
    + eexists. split; [reflexivity|]. unfold data_to. split; [|split].
      * intros v Hv. apply in_map_iff in Hv. destruct Hv as ([g x] & <- & H). apply filter_In in H. exists e, g, x. split; [reflexivity|]. split; [reflexivity|apply H].
      * intros e1 g x E1 _ H Lx Hg. injection E1 as <-. apply in_map_iff. exists (g, x). split; [reflexivity|]. apply filter_In. split; [exact H|]. cbn [fst snd].
        apply andb_true_intro. split; [apply Z.ltb_lt; lia|]. apply negb_true_iff.
        destruct (face_eqb g f) eqn:Eg; [|reflexivity]. apply same_face in Eg. subst g. destruct Hg as [Hg|Hg]; [congruence|]. rewrite Hg. reflexivity.
      * rewrite map_length. cbn [held]. generalize (e_in e). intros r. clear. induction r as [|x r IH]; [cbn; lia|]. cbn [filter]. destruct (_ && _); cbn [List.length] in *; lia.
    + exists []. split; [reflexivity|]. split; [intros v []|]. split; [|cbn; lia]. intros e1 g x E1 L. injection E1 as <-. lia.
  - exists []. split; [reflexivity|]. split; [intros v []|]. split; [|cbn; lia]. intros e1 g x E1. discriminate.
Qed.

Lemma emit_back : forall n l ev, In n sats -> (forall v, In v ev -> exists g, v = AData g /\ far n g) ->
  exists new, emit_all nw n l ev = Ok new /\ (List.length new <= List.length ev)%nat /\
    forall x, In x new <-> exists k m, In (AData (IslFace k)) ev /\ join k n m /\ x = mkFl k m PData.
Proof. exact (emit_data nw h nh tag sats target dist join dist_pos join_sym join_remote react). Qed.

(** What a satellite does with an Interest. *)
Lemma calm_ask : forall s air n f t l, calm s -> In n sats -> far n f -> rs_now s <= t -> (forall x, In x air -> In x (rs_air s)) ->
  exists s' e' ev new, at_node nw h nh scope s air n (Ask t f (Some tag) l) = Ok (s', (n, Ask t f (Some tag) l, ev)) /\ calm s' /\ quiet (n, Ask t f (Some tag) l, ev) /\
    rs_now s' = t /\ rs_air s' = air ++ new /\ rs_pit s' = put_pit n (Some e') (rs_pit s) /\ t + l <= e_end e' /\
    (forall g, record_of g (e_in e') = if face_eqb f g then Some (t + l) else match at_time t (rs_pit s n) with Some e => record_of g (e_in e) | None => None end) /\
    (List.length (e_in e') <= S (held (rs_pit s n)))%nat /\
    ((ev = [] /\ new = [] /\ exists e g o, rs_pit s n = Some e /\ In (g, o) (e_out e) /\ t - o_renewed o < retx_max) \/
     (n = target /\ ev = [ASent GroundFace (Some tag)] /\ new = []) \/
     (n <> target /\ exists k m, ev = [ASent (IslFace k) (Some tag)] /\ new = [mkFl k m (PAsk l)] /\ join k n m /\ In m sats /\ dist m < dist n)).
Proof.
  intros s air n f t l C Hn Hf Ht A1. pose proof C as [C1 C2].
  destruct (ask_any n f t l (rs_pit s n) (rs_now s) Hn Hf Ht (fun e E => proj2 (C1 n e E))) as (e' & ev & St & M & En & Rec & Len & Ev).
  assert (Em : exists new, emit_all nw n l ev = Ok new /\
    ((ev = [] /\ new = [] /\ exists e g o, rs_pit s n = Some e /\ In (g, o) (e_out e) /\ t - o_renewed o < retx_max) \/
     (n = target /\ ev = [ASent GroundFace (Some tag)] /\ new = []) \/
     (n <> target /\ exists k m, ev = [ASent (IslFace k) (Some tag)] /\ new = [mkFl k m (PAsk l)] /\ join k n m /\ In m sats /\ dist m < dist n))).
  { destruct Ev as [(-> & P)|[(-> & ->)|(Nt & k & m & -> & J & Hm & D)]].
    - exists []. auto.
    - exists []. auto 6.
    - exists [mkFl k m (PAsk l)]. cbn [emit_all emit]. rewrite (join_remote k n m Hn J). cbn. split; [reflexivity|]. right. right. split; [exact Nt|]. exists k, m. auto 6. }
  destruct Em as (new & Em & New). unfold at_node. rewrite St. cbn [rbind]. rewrite Em. cbn [rbind pop_time].
  exists (mkRS t (put_pit n (Some e') (rs_pit s)) (air ++ new)), e', ev, new. split; [reflexivity|]. split; [|split; [|auto 10]].
  - constructor; cbn [rs_now rs_pit rs_air].
    + intros n' e. unfold put_pit. destruct (Nat.eqb_spec n' n) as [->|N]; [intros E; injection E as <-; auto|].
      intros E. destruct (C1 n' e E) as (Hs & B1 & B2 & B3). split; [exact Hs|]. split; [exact B1|]. split; [exact B2|]. intros g o Ho. specialize (B3 g o Ho). lia.
    + intros x Hx. apply in_app_or in Hx. destruct Hx as [Hx|Hx]; [apply C2, A1, Hx|].
      destruct New as [(_ & -> & _)|[(_ & _ & ->)|(_ & k & m & _ & -> & J & Hm & D)]]; [destruct Hx|destruct Hx|]. destruct Hx as [<-|[]]. split; [exact Hm|].
      exists n. cbn [fl_chan fl_to fl_what]. auto.
  - intros v Hv. cbn [snd] in Hv. destruct New as [(-> & _)|[(_ & -> & _)|(_ & k & m & -> & _)]]; [destruct Hv|destruct Hv as [<-|[]]; exact Logic.I..].
Qed.

(** And with Data. *)
Lemma calm_data : forall s air n f t, calm s -> In n sats -> rs_now s <= t -> (forall x, In x air -> In x (rs_air s)) ->
  exists s' ev new, at_node nw h nh scope s air n (Answer t f) = Ok (s', (n, Answer t f, ev)) /\ calm s' /\ quiet (n, Answer t f, ev) /\
    rs_now s' = t /\ rs_air s' = air ++ new /\ rs_pit s' = put_pit n None (rs_pit s) /\
    (forall v, In v ev -> exists g, v = AData g) /\
    (forall e g x, rs_pit s n = Some e -> t < e_end e -> record_of g (e_in e) = Some x -> t < x -> (g <> f \/ g = GroundFace) -> In (AData g) ev) /\
    (forall k m, In (AData (IslFace k)) ev -> join k n m -> In (mkFl k m PData) new) /\
    (forall x, In x new -> fl_what x = PData) /\ (List.length ev <= held (rs_pit s n))%nat /\ (List.length new <= List.length ev)%nat.
Proof.
  intros s air n f t C Hn Ht A1. pose proof C as [C1 C2].
  destruct (answer_any n f t (rs_pit s n) (rs_now s) (fun e E => proj2 (C1 n e E))) as (ev & St & Ev1 & Ev2 & Len).
  destruct (emit_back n 0 ev Hn) as (new & Em & Ln & New).
  { intros v Hv. apply Ev1 in Hv. destruct Hv as (e & g & x & E & -> & Hg). exists g. split; [reflexivity|]. destruct (C1 n e E) as (_ & B & _). apply (B g x Hg). }
  unfold at_node. rewrite St. cbn [rbind]. rewrite Em. cbn [rbind pop_time].
  exists (mkRS t (put_pit n None (rs_pit s)) (air ++ new)), ev, new. split; [reflexivity|]. split; [|split; [|split; [reflexivity|]; split; [reflexivity|]; split; [reflexivity|]; split; [|split; [|split; [|split; [|split; [exact Len|exact Ln]]]]]]].
  - constructor; cbn [rs_now rs_pit rs_air].
    + intros n' e. unfold put_pit. destruct (Nat.eqb_spec n' n) as [->|N]; [discriminate|].
      intros E. destruct (C1 n' e E) as (Hs & B1 & B2 & B3). split; [exact Hs|]. split; [exact B1|]. split; [exact B2|]. intros g o Ho. specialize (B3 g o Ho). lia.
    + intros x Hx. apply in_app_or in Hx. destruct Hx as [Hx|Hx]; [apply C2, A1, Hx|]. apply New in Hx. destruct Hx as (k & m & Hk & J & ->).
      apply Ev1 in Hk. destruct Hk as (e & g & y & E & Q & Hg). injection Q as <-.
      destruct (C1 n e E) as (_ & B & _). destruct (B _ _ Hg) as [Fa|(k' & m' & Fa & J' & Hm & D)]; [discriminate|]. injection Fa as <-.
      rewrite (one_far k n m m' Hn J J'). split; [exact Hm|]. exists n. cbn [fl_chan fl_to fl_what]. auto.
  - intros v Hv. cbn [snd] in Hv. apply Ev1 in Hv. destruct Hv as (e & g & x & _ & -> & _). exact Logic.I.
  - intros v Hv. apply Ev1 in Hv. destruct Hv as (e & g & x & _ & -> & _). eauto.
  - intros e g x E L R Lx Hg. apply of_in in R. exact (Ev2 e g x E L R Lx Hg).
  - intros k m Hk J. apply New. eauto.
  - intros x Hx. apply New in Hx. destruct Hx as (k & m & _ & _ & ->). reflexivity.
Qed.

(** What comes: an Interest on a face from farther away, or Data on one from nearer. *)
Lemma calm_did : forall s o n p air, calm s -> at_sat sats o -> did tag s o n p air ->
  In n sats /\ (forall x, In x air -> In x (rs_air s)) /\
  ((exists f l, p = Ask (op_time o) f (Some tag) l /\ far n f /\ (forall x, In x (rs_air s) -> In x air \/ exists k, f = IslFace k /\ x = mkFl k n (PAsk l))) \/
   (exists f, p = Answer (op_time o) f /\ (f = GroundFace \/ exists k m, f = IslFace k /\ join k n m /\ dist m < dist n) /\
      (forall x, In x (rs_air s) -> In x air \/ exists k, f = IslFace k /\ x = mkFl k n PData))).
Proof.
  intros s o n p air C Sa D. destruct o as [t m l|t m|t i]; cbn [did op_time at_sat] in *.
  - destruct D as (-> & -> & ->). split; [exact Sa|]. split; [auto|]. left. exists GroundFace, l. split; [reflexivity|]. split; [left; reflexivity|auto].
  - destruct D as (-> & -> & ->). split; [exact Sa|]. split; [auto|]. right. exists GroundFace. auto.
  - destruct D as (f & T & -> & ->). apply take_in in T. destruct T as (T1 & T2 & T3). destruct (c_air _ C f T1) as (Hn & m & J & Hm & W). split; [exact Hn|]. split; [exact T2|].
    destruct f as [k n w]. cbn [fl_chan fl_to fl_what] in *. destruct w as [l| |]; [| |destruct W].
    + left. exists (IslFace k), l. split; [reflexivity|]. split; [right; eauto 8|]. intros x Hx. destruct (T3 x Hx) as [->|K]; eauto.
    + right. exists (IslFace k). split; [reflexivity|]. split; [right; eauto|]. intros x Hx. destruct (T3 x Hx) as [->|K]; eauto.
Qed.

Lemma calm_step : forall s o r, calm s -> at_sat sats o -> rstep s o = Some r -> exists s' x, r = Ok (s', x) /\ calm s' /\ quiet x /\ rs_now s' = op_time o.
Proof.
  intros s o r C Sa R. destruct (step_did nw h nh scope tag s o r R) as (n & p & air & D & -> & Hn & Pt).
  destruct (calm_did s o n p air C Sa D) as (Hs & A1 & [(f & l & -> & Ff & _)|(f & -> & _)]).
  - destruct (calm_ask s air n f (op_time o) l C Hs Ff Hn A1) as (s' & e' & ev & new & E & C' & Q & N & _). eauto 8.
  - destruct (calm_data s air n f (op_time o) C Hs Hn A1) as (s' & ev & new & E & C' & Q & N & _). eauto 8.
Qed.

Record tcalm (s : tstate) : Prop := mkTCalm {
  k_sky : calm (ts_sky s);
  k_up : forall n u, In (n, u) (ts_up s) -> In n sats;
  k_point : forall g, In (ts_point s g) sats }.

Lemma calm_later : forall s t, calm s -> rs_now s <= t -> calm (mkRS t (rs_pit s) (rs_air s)).
Proof.
  intros s t [C1 C2] Ht. constructor; [|exact C2]. cbn [rs_pit rs_now]. intros n e E. destruct (C1 n e E) as (Hs & B1 & B2 & B3). split; [exact Hs|].
  split; [exact B1|]. split; [exact B2|]. intros g o Ho. specialize (B3 g o Ho). lia.
Qed.

Lemma calm_through : forall s o up r, tcalm s -> at_sat sats o -> (forall x, In x up -> In x (ts_up s)) -> through stations up s (rstep (ts_sky s) o) = Some r ->
  exists s' x, r = Ok (s', [LSat x]) /\ tcalm s' /\ quiet x /\ rstep (ts_sky s) o = Some (Ok (ts_sky s', x)) /\
    ts_up s' = up /\ ts_down s' = ts_down s ++ downs stations (fst (fst x)) (snd x) /\ ts_point s' = ts_point s /\ rs_now (ts_sky s') = op_time o.
Proof.
  intros s o up r [K1 K2 K3] Sa A1 R. unfold through in R. destruct (rstep (ts_sky s) o) as [q|] eqn:E; [|discriminate].
  destruct (calm_step (ts_sky s) o q K1 Sa E) as (sky & x & -> & C & Q & N). injection R as <-.
  do 2 eexists. split; [reflexivity|]. split; [|split; [exact Q|]; cbn; auto 6]. constructor; cbn [ts_sky ts_up ts_point]; [exact C| |exact K3]. intros n u K. apply (K2 n u), A1, K.
Qed.

Lemma calm_tstep : forall s o r, tcalm s -> turned_to sats o -> tstep s o = Some r ->
  exists s' ev, r = Ok (s', ev) /\ tcalm s' /\ Forall quiet (sat_log ev).
Proof.
  intros s o r V Tu R. pose proof V as [V1 V2 V3]. destruct o as [t g l|t i|t i|t i|g n]; cbn [t_step turned_to] in *.
  - destruct (Z.leb_spec (rs_now (ts_sky s)) t) as [Hn|]; [|discriminate]. injection R as <-. do 2 eexists. split; [reflexivity|]. split; [|constructor].
    constructor; cbn [ts_sky ts_up ts_point]; [apply calm_later; assumption| |exact V3].
    intros n u K. apply in_app_or in K. destruct K as [K|[K|[]]]; [exact (V2 n u K)|]. injection K as <- <-. apply V3.
  - destruct (take_out i (ts_up s)) as [[[n u] up]|] eqn:T; [|discriminate]. apply take_in in T. destruct T as (T1 & T2 & T3). pose proof (V2 _ _ T1) as Hn.
    assert (K : exists o, through stations up s (rstep (ts_sky s) o) = Some r /\ at_sat sats o) by (destruct u as [l|]; [exists (RAsk t n l)|exists (RData t n)]; auto).
    destruct K as (o & R' & So). destruct (calm_through s o up r V So T2 R') as (s' & x & -> & I & Q & _). do 2 eexists. split; [reflexivity|]. split; [exact I|]. cbn. auto.
  - destruct (calm_through s (RMove t i) (ts_up s) r V Logic.I (fun x K => K) R) as (s' & x & -> & I & Q & _). do 2 eexists. split; [reflexivity|]. split; [exact I|]. cbn. auto.
  - destruct (take_out i (ts_down s)) as [[[[n g] w] down]|] eqn:T; [|discriminate].
    destruct (Z.leb_spec (rs_now (ts_sky s)) t) as [Hn|]; [|discriminate]. injection R as <-. destruct w; do 2 eexists; (split; [reflexivity|]).
    + split; [|constructor]. constructor; cbn [ts_sky ts_up ts_point]; [apply calm_later; assumption| |exact V3].
      intros n' u K. destruct (_ && _); [|exact (V2 _ _ K)]. apply in_app_or in K. destruct K as [K|[K|[]]]; [exact (V2 _ _ K)|]. injection K as <- <-. apply V3.
    + split; [|destruct (_ =? _)%nat; constructor]. constructor; cbn [ts_sky ts_up ts_point]; [apply calm_later; assumption|exact V2|exact V3].
  - injection R as <-. do 2 eexists. split; [reflexivity|]. split; [|constructor]. constructor; cbn [ts_sky ts_up ts_point]; [exact V1|exact V2|].
    intros g'. destruct (_ =? _)%nat; [exact Tu|apply V3].
Qed.

Lemma calm_lstep : forall s o r, tcalm s -> led_to sats o -> lstep s o = Some r -> exists s' ev, r = Ok (s', ev) /\ tcalm s' /\ Forall quiet (sat_log ev).
Proof.
  intros s o r V Le R. pose proof V as [V1 V2 V3]. destruct o as [o|i|i|i]; cbn [l_step led_to] in *.
  - exact (calm_tstep s o r V Le R).
  - destruct (take_out i (ts_up s)) as [[x up]|] eqn:T; [|discriminate]. apply take_in in T. destruct T as (_ & T & _). injection R as <-. do 2 eexists. split; [reflexivity|]. split; [|constructor].
    constructor; [exact V1| |exact V3]. intros n u K. apply (V2 n u), T, K.
  - destruct (take_out i (rs_air (ts_sky s))) as [[x air]|] eqn:T; [|discriminate]. apply take_in in T. destruct T as (_ & T & _). injection R as <-. do 2 eexists. split; [reflexivity|]. split; [|constructor].
    constructor; [|exact V2|exact V3]. destruct V1 as [C1 C2]. constructor; [exact C1|]. intros f K. apply C2, T, K.
  - destruct (take_out i (ts_down s)) as [[x down]|] eqn:T; [|discriminate]. injection R as <-. do 2 eexists. split; [reflexivity|]. split; [|constructor]. constructor; assumption.
Qed.

Lemma calm_lrun : forall ops s r, tcalm s -> Forall (led_to sats) ops -> lrun s ops = Some r -> exists s' tr', r = Ok (s', tr') /\ tcalm s' /\ Forall quiet (sat_log tr').
Proof.
  induction ops as [|o ops IH]; intros s r V Le R; cbn [l_run] in R.
  - injection R as <-. exists s, []. split; [reflexivity|]. split; [exact V|constructor].
  - inversion Le; subst. destruct (lstep s o) as [r1|] eqn:E; [|discriminate].
    destruct (calm_lstep s o r1 V ltac:(assumption) E) as (s1 & ev & -> & V1 & Q1).
    destruct (lrun s1 ops) as [r2|] eqn:E2; [|discriminate].
    destruct (IH s1 r2 V1 ltac:(assumption) E2) as (s2 & tr2 & -> & V2 & Q2). injection R as <-.
    exists s2, (ev ++ tr2). split; [reflexivity|]. split; [exact V2|]. rewrite sat_log_app. apply Forall_app. auto.
Qed.

Lemma calm_init : forall t point, (forall g, In (point g) sats) -> tcalm (t_init t point).
Proof. intros t point Hp. constructor; [constructor; [intros n e X; discriminate|intros f []]|intros n u []|exact Hp]. Qed.

(** ** Coming to rest *)
Hypothesis sats_nodup : NoDup sats.
Notation aload := (air_load dist stations).
Notation uload := (up_load dist stations).
Notation tload := (trip_load sats dist stations).
Notation hold_all := (holds sats stations).
Notation wt := (weighs dist stations).

Lemma calm_less : forall s o n p air s' x, calm s -> at_sat sats o -> did tag s o n p air -> rs_now s <= op_time o -> at_node nw h nh scope s air n p = Ok (s', x) ->
  fst (fst x) = n /\
  (sum (map aload (rs_air s')) + hold_all (rs_pit s') + sum (map down_load (downs stations n (snd x))) < wt p n + sum (map aload air) + hold_all (rs_pit s))%nat.
Proof.
  intros s o n p air s' x C Sa D Ht E. destruct (calm_did s o n p air C Sa D) as (Hs & A1 & [(f & l & -> & Ff & _)|(f & -> & _)]).
  - destruct (calm_ask s air n f (op_time o) l C Hs Ff Ht A1) as (s1 & e' & ev & new & E1 & _ & _ & _ & Ea & Pp & _ & _ & Le & Ev). rewrite E in E1. injection E1 as -> ->.
    split; [reflexivity|]. cbn [snd]. rewrite Pp, Ea, map_app, sum_both. pose proof (holds_put sats stations sats_nodup n (Some e') (rs_pit s) Hs) as Hh. unfold weighs.
    cbn [held] in Hh. set (N := List.length stations) in *.
    assert (Hb : (List.length (e_in e') * (N + 2) <= held (rs_pit s n) * (N + 2) + (N + 2))%nat) by (transitivity (S (held (rs_pit s n)) * (N + 2))%nat; [apply Nat.mul_le_mono_r; exact Le|lia]).
    assert (Hc : (cost stations * S (Z.to_nat (dist n)) = cost stations * Z.to_nat (dist n) + (3 * N + 5))%nat) by (unfold cost; fold N; lia). rewrite Hc.
    destruct Ev as [(-> & -> & _)|[(_ & -> & ->)|(_ & k & m & -> & -> & J & Hm & Dm)]].
    + cbn. lia.
    + cbn [downs flat_map]. rewrite app_nil_r.
      assert (Hd : (sum (map down_load (map (fun g => (n, g, DAsk)) stations)) <= 2 * N)%nat).
      { rewrite map_map. apply (sum_most _ (fun x => down_load (n, x, DAsk)) 2%nat stations). intros; cbn; lia. }
      cbn [map sum fold_right]. lia.
    + cbn [downs flat_map app map sum fold_right]. unfold air_load at 2. cbn [fl_what fl_to].
      pose proof (dist_pos m Hm). assert (Lt : (S (Z.to_nat (dist m)) <= Z.to_nat (dist n))%nat) by lia.
      assert (cost stations * S (Z.to_nat (dist m)) <= cost stations * Z.to_nat (dist n))%nat by (apply Nat.mul_le_mono_l; exact Lt). lia.
  - destruct (calm_data s air n f (op_time o) C Hs Ht A1) as (s1 & ev & new & E1 & _ & _ & _ & Ea & Pp & Ev & _ & _ & Nd & Le & Ln). rewrite E in E1. injection E1 as -> ->.
    split; [reflexivity|]. cbn [snd]. rewrite Pp, Ea, map_app, sum_both. pose proof (holds_put sats stations sats_nodup n None (rs_pit s) Hs) as Hh. unfold weighs. cbn [held] in Hh.
    assert (S1 : (sum (map aload new) <= 1 * List.length new)%nat).
    { apply sum_most. intros x Hx. unfold air_load. rewrite (Nd x Hx). lia. }
    assert (S2 : (sum (map down_load (downs stations n ev)) <= 1 * List.length (downs stations n ev))%nat).
    { apply sum_most. intros x Hx. apply in_downs in Hx. destruct Hx as (g & _ & [((tg & Hx) & ->)|(_ & ->)]); [|cbn; lia]. apply Ev in Hx. destruct Hx as (? & Hx). discriminate. }
    pose proof (downs_most stations n ev) as S3. set (N := List.length stations) in *.
    assert (N * List.length ev <= N * held (rs_pit s n))%nat by (apply Nat.mul_le_mono_l; exact Le). lia.
Qed.

Lemma calm_fewer : forall s, tcalm s -> ~ all_quiet s -> exists o s' ev, one_more (rs_now (ts_sky s)) o /\
  tstep s o = Some (Ok (s', ev)) /\ tcalm s' /\ rs_now (ts_sky s') = rs_now (ts_sky s) /\ (tload s' < tload s)%nat.
Proof.
  intros s V Nq. pose proof V as [V1 V2 V3]. set (now := rs_now (ts_sky s)) in *.
  assert (Sat : forall o up, at_sat sats o -> op_time o = now -> (exists r, rstep (ts_sky s) o = Some r) ->
    (forall x, In x up -> In x (ts_up s)) ->
    (forall n p air, did tag (ts_sky s) o n p air -> (wt p n + sum (map aload air) + sum (map uload up) <= sum (map uload (ts_up s)) + sum (map aload (rs_air (ts_sky s))))%nat) ->
    exists s' ev, through stations up s (rstep (ts_sky s) o) = Some (Ok (s', ev)) /\ tcalm s' /\ rs_now (ts_sky s') = now /\ (tload s' < tload s)%nat).
  { intros o up So Et (r & R) A1 W. assert (exists q, through stations up s (rstep (ts_sky s) o) = Some q) as (q & Rq).
    { rewrite R. unfold through. destruct r as [[? ?]| | |]; eauto. }
    destruct (calm_through s o up q V So A1 Rq) as (s' & x & -> & V' & _ & Rs & Eu & Ed & _ & En'). exists s', [LSat x]. split; [exact Rq|]. split; [exact V'|].
    destruct (step_did _ _ _ _ _ _ _ _ Rs) as (n & p & air & D & Eq & Ht & Pt). symmetry in Eq.
    destruct (calm_less _ _ _ _ _ _ _ V1 So D Ht Eq) as (En & L). split; [congruence|]. unfold trip_load. rewrite Eu, Ed, map_app, sum_both, En. specialize (W n p air D). lia. }
  destruct (ts_up s) as [|[n u] up] eqn:Eu; [destruct (rs_air (ts_sky s)) as [|f air] eqn:Ea; [destruct (ts_down s) as [|[[n g] w] down] eqn:Ed|]|].
  - exfalso. apply Nq. split; [exact Ea|]. split; [exact Eu|exact Ed].
  - exists (TDown now 0). assert (exists s' ev, tstep s (TDown now 0) = Some (Ok (s', ev))) as (s' & ev & St).
    { cbn [t_step]. rewrite Ed. cbn [take_out]. fold now. rewrite Z.leb_refl. destruct w; do 2 eexists; reflexivity. }
    exists s', ev. split; [right; right; reflexivity|]. split; [exact St|]. destruct (calm_tstep s (TDown now 0) _ V Logic.I St) as (s1 & ev1 & Q & V' & _). injection Q as <- <-. split; [exact V'|].
    cbn [t_step] in St. rewrite Ed in St. cbn [take_out] in St. fold now in St. rewrite Z.leb_refl, Eu in St. unfold trip_load. rewrite Ed, Eu, Ea. cbn [map sum fold_right].
    destruct w; injection St as <- <-; cbn [ts_sky ts_up ts_down ts_point rs_now rs_pit rs_air]; (split; [reflexivity|]); rewrite Ea; cbn [map sum fold_right].
    + unfold down_load at 2. cbn [snd]. fold (sum (map down_load down)). destruct (_ && _); cbn [app map sum fold_right up_load snd]; lia.
    + unfold down_load at 2. cbn [snd]. fold (sum (map down_load down)). lia.
  - exists (TMove now 0). destruct (Sat (RMove now 0) []) as (s' & ev & St & K).
    + exact Logic.I.
    + reflexivity.
    + cbn [r_step]. rewrite Ea. cbn [take_out]. fold now. rewrite Z.leb_refl. eauto.
    + intros x [].
    + intros m p air' (f' & T & -> & ->). rewrite Ea in T. cbn [take_out] in T. injection T as <- <-. cbn [map sum fold_right]. fold (sum (map aload air)).
      destruct (c_air _ V1 f) as (_ & z & _ & _ & Wf); [rewrite Ea; left; reflexivity|]. unfold air_load at 2, weighs. destruct (fl_what f); [lia|lia|destruct Wf].
    + exists s', ev. split; [right; left; reflexivity|]. cbn [t_step]. rewrite Eu. split; [exact St|exact K].
  - exists (TUp now 0). pose proof (V2 n u ltac:(left; reflexivity)) as Hn. destruct u as [l|].
    + destruct (Sat (RAsk now n l) up) as (s' & ev & St & K).
      * exact Hn.
      * reflexivity.
      * cbn [r_step]. fold now. rewrite Z.leb_refl. eauto.
      * intros x Hx. right. exact Hx.
      * intros m p air' (-> & -> & ->). cbn [map sum fold_right]. fold (sum (map uload up)). unfold up_load at 2, weighs. cbn [snd fst]. lia.
      * exists s', ev. split; [left; reflexivity|]. cbn [t_step]. rewrite Eu. cbn [take_out]. split; [exact St|exact K].
    + destruct (Sat (RData now n) up) as (s' & ev & St & K).
      * exact Hn.
      * reflexivity.
      * cbn [r_step]. fold now. rewrite Z.leb_refl. eauto.
      * intros x Hx. right. exact Hx.
      * intros m p air' (-> & -> & ->). cbn [map sum fold_right]. fold (sum (map uload up)). unfold up_load at 2, weighs. cbn [snd fst]. lia.
      * exists s', ev. split; [left; reflexivity|]. cbn [t_step]. rewrite Eu. cbn [take_out]. split; [exact St|exact K].
Qed.

Lemma calm_rest : forall s, tcalm s -> exists ops s' tr', Forall (one_more (rs_now (ts_sky s))) ops /\ trun s ops = Some (Ok (s', tr')) /\ all_quiet s'.
Proof.
  intros s. remember (tload s) as w eqn:W. revert s W. induction w as [w IH] using lt_wf_ind. intros s W V.
  destruct (quiet_dec s) as [Q|Q]; [exists [], s, []; auto|]. destruct (calm_fewer s V Q) as (o & s1 & ev & Ho & St & V1 & N1 & L).
  destruct (IH (tload s1) ltac:(lia) s1 eq_refl V1) as (ops & s2 & tr2 & F & R & A).
  exists (o :: ops), s2, (ev ++ tr2). split; [constructor; [exact Ho|rewrite <- N1; exact F]|]. split; [|exact A]. cbn [t_run]. rewrite St, R. reflexivity.
Qed.

(** ** After the silence *)
Variables t0 life : Z.
Variable point0 : nat -> nat.

Definition goes_on (s : rstate) (tr : rlog) (n : nat) : Prop :=
  exists k m, join k n m /\ In m sats /\ dist m < dist n /\
    ((exists l, In (mkFl k m (PAsk l)) (rs_air s)) \/ pends tr m (IslFace k) = true \/ In (mkFl k n PData) (rs_air s)).

Record anew (s : rstate) (tr : rlog) : Prop := mkAnew {
  f_calm : calm s;
  f_life : forall k m l, In (mkFl k m (PAsk l)) (rs_air s) -> life <= l;
  f_in : forall n f, pends tr n f = true -> exists e x, rs_pit s n = Some e /\ t0 + life <= e_end e /\ record_of f (e_in e) = Some x /\ t0 + life <= x;
  f_cover : forall n, touch tr n = true -> In n sats /\ (n <> target -> goes_on s tr n);
  f_old : forall n e g o, touch tr n = false -> rs_pit s n = Some e -> In (g, o) (e_out e) -> o_renewed o + retx_max <= t0 }.

Definition at_ground (s : rstate) (tr : rlog) (o : rop) (x : nat * pop * list pev) : Prop :=
  (touch (tr ++ [x]) target = true -> (touch tr target = true /\ forall t, o <> RData t target) \/ (fst (fst x) = target /\ In (ASent GroundFace (Some tag)) (snd x))) /\
  (forall n, pends tr n GroundFace = true -> pends (tr ++ [x]) n GroundFace = true \/ (fst (fst x) = n /\ In (AData GroundFace) (snd x))) /\
  (forall t n l, o = RAsk t n l -> pends (tr ++ [x]) n GroundFace = true).

Lemma anew_step : forall s tr o r, anew s tr -> timely t0 life o -> at_sat sats o -> rstep s o = Some r ->
  exists s' x, r = Ok (s', x) /\ anew s' (tr ++ [x]) /\ at_ground s tr o x.
Proof.
  intros s tr o r F (Tm & Lf) Sa R. pose proof F as [F1 F2 F3 F4 F5].
  destruct (step_did nw h nh scope tag s o r R) as (n & p & air & D & -> & Hn & Pt).
  destruct (calm_did s o n p air F1 Sa D) as (Hs & A1 & [(f & l & -> & Ff & A2)|(f & -> & Ff & A2)]).
  - assert (Ll : life <= l).
    { destruct o as [t m l'|t m|t i]; cbn [did op_time] in D.
      - destruct D as (_ & Q & _). injection Q as _ ->. exact Lf.
      - destruct D as (_ & Q & _). discriminate.
      - destruct D as (fl & T & -> & Q). apply take_in in T. destruct T as (T & _). destruct fl as [k m w]. cbn [fl_what fl_chan fl_to] in *. destruct w; [|discriminate|discriminate]. injection Q as _ ->. exact (F2 _ _ _ T). }
    set (t := op_time o) in *. destruct (calm_ask s air n f t l F1 Hs Ff Hn A1) as (s' & e' & ev & new & E & C' & Q & N & Ea & Pp & En & Rec & Len & Ev).
    exists s', (n, Ask t f (Some tag) l, ev). split; [exact E|].
    assert (Alive : touch tr n = false -> ev <> []).
    { intros Un ->. destruct Ev as [(_ & _ & e & g & oo & Pe & Ho & Lt)|[(_ & Q' & _)|(_ & k & m & Q' & _)]]; [|discriminate|discriminate].
      pose proof (F5 n e g oo Un Pe Ho). lia. }
    assert (Pm : forall n' g, pends (tr ++ [(n, Ask t f (Some tag) l, ev)]) n' g = true -> (n' = n /\ g = f) \/ pends tr n' g = true).
    { intros n' g. rewrite pends_more. cbn [fst snd]. destruct (Nat.eqb_spec n n') as [->|_]; [|auto]. intros K. apply orb_prop in K. destruct K as [K|K]; [|auto]. apply same_face in K. auto. }
    assert (Pk : forall n' g, pends tr n' g = true -> pends (tr ++ [(n, Ask t f (Some tag) l, ev)]) n' g = true).
    { intros n' g K. rewrite pends_more. cbn [fst snd]. rewrite K. destruct (_ =? _)%nat; [apply orb_true_r|reflexivity]. }
    assert (Pf : pends (tr ++ [(n, Ask t f (Some tag) l, ev)]) n f = true).
    { rewrite pends_more. cbn [fst snd]. rewrite Nat.eqb_refl, face_refl. reflexivity. }
    split; [|split; [|split]].
    + constructor.
      * exact C'.
      * intros k m l' K. rewrite Ea in K. apply in_app_or in K. destruct K as [K|K]; [apply (F2 k m l'), A1, K|].
        destruct Ev as [(_ & -> & _)|[(_ & _ & ->)|(_ & k' & m' & _ & -> & _)]]; [destruct K|destruct K|]. destruct K as [K|[]]. injection K as _ _ ->. exact Ll.
      * intros n' g K. rewrite Pp. apply Pm in K. destruct (Nat.eq_dec n' n) as [->|Nn].
        -- rewrite put_same. exists e'. destruct (face_eqb f g) eqn:Efg.
           ++ exists (t + l). rewrite Rec, Efg. repeat split; lia.
           ++ destruct K as [(_ & ->)|K]; [rewrite face_refl in Efg; discriminate|]. destruct (F3 n g K) as (e & x & Pe & Ee & Re & Lx). exists x. rewrite Rec, Efg, Pe. cbn [at_time].
              destruct (Z.ltb_spec t (e_end e)); [|lia]. repeat split; [lia|exact Re|exact Lx].
        -- rewrite put_else by exact Nn. destruct K as [(K & _)|K]; [congruence|]. exact (F3 n' g K).
      * intros n' K. rewrite touch_more in K. cbn [fst snd] in K.
        assert (Old : touch tr n' = true -> In n' sats /\ (n' <> target -> goes_on s' (tr ++ [(n, Ask t f (Some tag) l, ev)]) n')).
        { intros Ko. destruct (F4 n' Ko) as (Hs' & G). split; [exact Hs'|]. intros Nt. destruct (G Nt) as (k & m & J & Hm & Dm & B). exists k, m. split; [exact J|]. split; [exact Hm|]. split; [exact Dm|].
          rewrite Ea. destruct B as [(l' & B)|[B|B]].
          - destruct (A2 _ B) as [B1|(k' & Ek & B1)]; [left; exists l'; apply in_or_app; auto|]. injection B1 as -> -> _. right. left. rewrite <- Ek. exact Pf.
          - right. left. apply Pk, B.
          - right. right. destruct (A2 _ B) as [B1|(k' & _ & B1)]; [apply in_or_app; auto|discriminate]. }
        destruct (Nat.eq_dec n' n) as [->|Nn]; [|apply Old; destruct (Nat.eqb_spec n n'); [congruence|exact K]]. destruct (touch tr n) eqn:Tn; [exact (Old eq_refl)|]. split; [exact Hs|]. intros Nt.
        specialize (Alive eq_refl). destruct Ev as [(-> & _)|[(X & _)|(_ & k & m & _ & -> & J & Hm & Dm)]]; [congruence|congruence|].
        exists k, m. split; [exact J|]. split; [exact Hm|]. split; [exact Dm|]. left. exists l. rewrite Ea. apply in_or_app. right. left. reflexivity.
      * intros n' e g oo K Pe Ho. rewrite touch_more in K. cbn [fst snd] in K. rewrite Pp in Pe. destruct (Nat.eqb_spec n n') as [<-|Nn]; [discriminate|].
        rewrite put_else in Pe by congruence. exact (F5 n' e g oo K Pe Ho).
    + intros K. rewrite touch_more in K. cbn [fst snd] in K. destruct (Nat.eqb_spec n target) as [->|Nn].
      * destruct (touch tr target) eqn:Tn.
        -- left. split; [reflexivity|]. intros t' ->. destruct D as (_ & D & _). discriminate.
        -- right. split; [reflexivity|]. specialize (Alive eq_refl). cbn [snd]. destruct Ev as [(-> & _)|[(_ & -> & _)|(X & _)]]; [congruence|left; reflexivity|congruence].
      * left. split; [exact K|]. intros t' ->. destruct D as (_ & D & _). discriminate.
    + intros m K. left. apply Pk, K.
    + intros t' m l' ->. destruct D as (-> & D & _). injection D as D _. rewrite D in *. exact Pf.
  - set (t := op_time o) in *. destruct (calm_data s air n f t F1 Hs Hn A1) as (s' & ev & new & E & C' & Q & N & Ea & Pp & Ev & Ans & Out & Nd & _).
    exists s', (n, Answer t f, ev). split; [exact E|].
    assert (Pm : forall n' g, pends (tr ++ [(n, Answer t f, ev)]) n' g = if (n =? n')%nat then false else pends tr n' g) by (intros; rewrite pends_more; reflexivity).
    assert (Given : forall g, pends tr n g = true -> (g <> f \/ g = GroundFace) -> In (AData g) ev).
    { intros g K Hg. destruct (F3 n g K) as (e & x & Pe & Ee & Re & Lx). apply (Ans e g x Pe); [lia|exact Re|lia|exact Hg]. }
    split; [|split; [|split]].
    + constructor.
      * exact C'.
      * intros k m l' K. rewrite Ea in K. apply in_app_or in K. destruct K as [K|K]; [apply (F2 k m l'), A1, K|]. apply Nd in K. discriminate.
      * intros n' g K. rewrite Pm in K. destruct (Nat.eqb_spec n n') as [->|Nn]; [discriminate|]. rewrite Pp, put_else by congruence. exact (F3 n' g K).
      * intros n' K. rewrite touch_more in K. cbn [fst snd] in K. destruct (Nat.eqb_spec n n') as [->|Nn]; [discriminate|].
        destruct (F4 n' K) as (Hs' & G). split; [exact Hs'|]. intros Nt. destruct (G Nt) as (k & m & J & Hm & Dm & B). exists k, m. split; [exact J|]. split; [exact Hm|]. split; [exact Dm|].
        rewrite Ea. destruct B as [(l' & B)|[B|B]].
        -- left. exists l'. destruct (A2 _ B) as [B1|(k' & _ & B1)]; [apply in_or_app; auto|discriminate].
        -- rewrite Pm. destruct (Nat.eqb_spec n m) as [<-|Nm]; [|auto]. right. right. apply in_or_app. right. apply Out; [|apply join_sym, J]. apply Given; [exact B|]. left. intros Ek.
           destruct Ff as [Ff|(k' & m' & Ff & J' & D')]; [congruence|]. rewrite Ff in Ek. injection Ek as ->.
           rewrite (one_far k' n m' n' Hs J' (join_sym _ _ _ J)) in D'. lia.
        -- right. right. destruct (A2 _ B) as [B1|(k' & _ & B1)]; [apply in_or_app; auto|]. injection B1 as _ B1. congruence.
      * intros n' e g oo K Pe Ho. rewrite touch_more in K. cbn [fst snd] in K. rewrite Pp in Pe. destruct (Nat.eqb_spec n n') as [<-|Nn]; [rewrite put_same in Pe; discriminate|].
        rewrite put_else in Pe by congruence. exact (F5 n' e g oo K Pe Ho).
    + intros K. rewrite touch_more in K. cbn [fst snd] in K. destruct (Nat.eqb_spec n target) as [->|Nn]; [discriminate|]. left. split; [exact K|]. intros t' ->. destruct D as (D & _). congruence.
    + intros m K. rewrite Pm. cbn [fst snd]. destruct (Nat.eqb_spec n m) as [<-|Nm]; [|auto]. right. split; [reflexivity|]. apply Given; auto.
    + intros t' m l' ->. destruct D as (_ & D & _). discriminate.
Qed.

Lemma anew_later : forall s tr t, anew s tr -> rs_now s <= t -> anew (mkRS t (rs_pit s) (rs_air s)) tr.
Proof. intros s tr t [F1 F2 F3 F4 F5] Ht. constructor; [apply calm_later; assumption|assumption..]. Qed.

Notation fix0 := (fixed target producer point0).
Record winv (s : tstate) (tr : list tevent) : Prop := mkWInv {
  w_sky : anew (ts_sky s) (sat_log tr);
  w_up : forall n u, In (n, u) (ts_up s) -> In n sats /\ match u with UAsk l => life <= l | UData => True end;
  w_point : forall g, In (ts_point s g) sats;
  w_prod : fix0 tr -> ts_point s producer = target;
  w_due : fix0 tr -> touch (sat_log tr) target = true -> In (target, producer, DAsk) (ts_down s) \/ In (target, UData) (ts_up s);
  w_wait : forall g, In g stations -> asking tr g = true ->
    (exists l, In (ts_point s g, UAsk l) (ts_up s)) \/ pends (sat_log tr) (ts_point s g) GroundFace = true \/ In (ts_point s g, g, DData) (ts_down s) }.

Lemma anew_through : forall s tr o up r, winv s tr -> timely t0 life o -> at_sat sats o ->
  (forall x, In x up -> In x (ts_up s)) ->
  (forall x, In x (ts_up s) -> In x up \/ (exists t n l, x = (n, UAsk l) /\ o = RAsk t n l) \/ exists t n, x = (n, UData) /\ o = RData t n) ->
  through stations up s (rstep (ts_sky s) o) = Some r ->
  exists s' x, r = Ok (s', [LSat x]) /\ winv s' (tr ++ [LSat x]).
Proof.
  intros s tr o up r V Ti Sa A1 A2 R. pose proof V as [V1 V2 V3 V4 V5 V6]. unfold through in R.
  destruct (rstep (ts_sky s) o) as [q|] eqn:E; [|discriminate].
  destruct (anew_step _ _ o q V1 Ti Sa E) as (sky & x & -> & I & G1 & G2 & G3).
  injection R as <-. exists (mkT sky up (ts_down s ++ downs stations (fst (fst x)) (snd x)) (ts_point s)), x. split; [reflexivity|].
  assert (Lg : sat_log (tr ++ [LSat x]) = sat_log tr ++ [x]) by (rewrite sat_log_app; reflexivity).
  assert (Fx : fix0 (tr ++ [LSat x]) -> fix0 tr) by (intros (K1 & K2); split; [exact K1|]; intros m K; apply (K2 m), in_or_app; auto).
  constructor; cbn [ts_sky ts_up ts_down ts_point].
  - rewrite Lg. exact I.
  - intros n u K. apply V2, A1, K.
  - exact V3.
  - intros F. apply V4, Fx, F.
  - intros F Nn. rewrite Lg in Nn. destruct (G1 Nn) as [(On & Nd)|(Ex & Hs)].
    + destruct (V5 (Fx F) On) as [K|K]; [left; apply in_or_app; auto|]. destruct (A2 _ K) as [K1|[(t & n & l & K1 & _)|(t & n & K1 & ->)]]; [auto|discriminate|].
      injection K1 as <-. destruct (Nd t eq_refl).
    + left. apply in_or_app. right. rewrite Ex. apply in_downs. exists producer. split; [exact here|]. left. split; [eauto|reflexivity].
  - intros g Hg Aw. rewrite Lg. rewrite asking_more in Aw. destruct (V6 g Hg Aw) as [(l & K)|[K|K]].
    + destruct (A2 _ K) as [K1|[(t & n & l' & K1 & ->)|(t & n & K1 & _)]]; [left; eauto| |discriminate].
      injection K1 as <- <-. right. left. exact (G3 _ _ _ eq_refl).
    + destruct (G2 _ K) as [K1|(K1 & K2)]; [auto|]. right. right. apply in_or_app. right. rewrite K1. apply in_downs. exists g. auto.
    + right. right. apply in_or_app. auto.
Qed.

Lemma fix0_prefix : forall a b, fix0 (a ++ b) -> fix0 a.
Proof. intros a b (F & N). split; [exact F|]. intros n K. apply (N n), in_or_app. auto. Qed.

Lemma anew_tstep : forall s tr o r, winv s tr -> in_time t0 life o -> turned_to sats o -> tstep s o = Some r ->
  exists s' ev, r = Ok (s', ev) /\ winv s' (tr ++ ev).
Proof.
  intros s tr o r V Ti Tu R. pose proof V as [V1 V2 V3 V4 V5 V6]. destruct o as [t g l|t i|t i|t i|g n]; cbn [t_step in_time turned_to] in *.
  - destruct (Z.leb_spec (rs_now (ts_sky s)) t) as [Hn|]; [|discriminate]. injection R as <-. do 2 eexists. split; [reflexivity|].
    assert (Lg : sat_log (tr ++ [LAsk g]) = sat_log tr) by (rewrite sat_log_app; apply app_nil_r).
    constructor; cbn [ts_sky ts_up ts_down ts_point]; rewrite ?Lg.
    + apply anew_later; [exact V1|exact Hn].
    + intros n u K. apply in_app_or in K. destruct K as [K|[K|[]]]; [exact (V2 n u K)|]. injection K as <- <-. split; [apply V3|apply Ti].
    + exact V3.
    + intros F. apply V4. eapply fix0_prefix, F.
    + intros F Nn. destruct (V5 (fix0_prefix _ _ F) Nn); [auto|right; apply in_or_app; auto].
    + intros g' Hg Aw. rewrite asking_more in Aw. destruct (Nat.eqb_spec g g') as [<-|Ng].
      * left. exists l. apply in_or_app. right. left. reflexivity.
      * destruct (V6 g' Hg Aw) as [(l' & K)|[K|K]]; [left; exists l'; apply in_or_app; auto|auto|auto].
  - destruct (take_out i (ts_up s)) as [[[n u] up]|] eqn:T; [|discriminate]. apply take_in in T. destruct T as (T1 & T2 & T3). destruct (V2 _ _ T1) as (Hn & Hu).
    assert (K : exists o, through stations up s (rstep (ts_sky s) o) = Some r /\ timely t0 life o /\ at_sat sats o /\
      (forall x, In x (ts_up s) -> In x up \/ (exists t n l, x = (n, UAsk l) /\ o = RAsk t n l) \/ exists t n, x = (n, UData) /\ o = RData t n)).
    { destruct u as [l|].
      - exists (RAsk t n l). split; [exact R|]. split; [split; [exact Ti|exact Hu]|]. split; [exact Hn|]. intros x K. destruct (T3 x K) as [->|K1]; [right; left; eauto|auto].
      - exists (RData t n). split; [exact R|]. split; [split; [exact Ti|exact Logic.I]|]. split; [exact Hn|]. intros x K. destruct (T3 x K) as [->|K1]; [right; right; eauto|auto]. }
    destruct K as (o & R' & To & So & A2). destruct (anew_through s tr o up r V To So T2 A2 R') as (s' & x & -> & I).
    do 2 eexists. split; [reflexivity|]. exact I.
  - destruct (anew_through s tr (RMove t i) (ts_up s) r V (conj Ti Logic.I) Logic.I (fun x K => K) (fun x K => or_introl K) R) as (s' & x & -> & I).
    do 2 eexists. split; [reflexivity|]. exact I.
  - destruct (take_out i (ts_down s)) as [[[[n g] w] down]|] eqn:T; [|discriminate]. apply take_in in T. destruct T as (T1 & T2 & T3).
    destruct (Z.leb_spec (rs_now (ts_sky s)) t) as [Hn|]; [|discriminate]. injection R as <-. destruct w.
    + do 2 eexists. split; [reflexivity|]. rewrite app_nil_r. constructor; cbn [ts_sky ts_up ts_down ts_point].
      * apply anew_later; [exact V1|exact Hn].
      * intros n' u K. destruct (_ && _); [|exact (V2 _ _ K)]. apply in_app_or in K. destruct K as [K|[K|[]]]; [exact (V2 _ _ K)|]. injection K as <- <-. split; [apply V3|exact Logic.I].
      * exact V3.
      * exact V4.
      * intros F Nn. destruct (V5 F Nn) as [K|K].
        -- destruct (T3 _ K) as [K1|K1]; [|auto]. injection K1 as <- <-. rewrite (V4 F), !Nat.eqb_refl. right. apply in_or_app. right. left. reflexivity.
        -- right. destruct (_ && _); [apply in_or_app; auto|exact K].
      * intros g' Hg Aw. destruct (V6 g' Hg Aw) as [(l' & K)|[K|K]].
        -- left. exists l'. destruct (_ && _); [apply in_or_app; auto|exact K].
        -- auto.
        -- right. right. destruct (T3 _ K) as [K1|K1]; [discriminate|exact K1].
    + do 2 eexists. split; [reflexivity|]. assert (Lg : sat_log (tr ++ (if (ts_point s g =? n)%nat then [LData g] else [])) = sat_log tr).
      { rewrite sat_log_app. destruct (_ =? _)%nat; apply app_nil_r. }
      constructor; cbn [ts_sky ts_up ts_down ts_point]; rewrite ?Lg.
      * apply anew_later; [exact V1|exact Hn].
      * exact V2.
      * exact V3.
      * intros F. apply V4. eapply fix0_prefix, F.
      * intros F Nn. destruct (V5 (fix0_prefix _ _ F) Nn) as [K|K]; [|auto]. left. destruct (T3 _ K) as [K1|K1]; [discriminate|exact K1].
      * intros g' Hg Aw.
        assert (Aw' : asking tr g' = true /\ (g' = g -> ts_point s g <> n)).
        { destruct (Nat.eqb_spec (ts_point s g) n) as [En|En].
          - rewrite asking_more in Aw. apply andb_prop in Aw. destruct Aw as [Aw1 Aw2]. split; [exact Aw2|]. intros ->. rewrite Nat.eqb_refl in Aw1. discriminate.
          - rewrite app_nil_r in Aw. auto. }
        destruct Aw' as (Aw1 & Aw2). destruct (V6 g' Hg Aw1) as [K|[K|K]]; [auto|auto|].
        right. right. destruct (T3 _ K) as [K1|K1]; [|exact K1]. injection K1 as K1 K2. subst g'. destruct (Aw2 eq_refl K1).
  - injection R as <-. do 2 eexists. split; [reflexivity|].
    assert (Lg : sat_log (tr ++ [LTurn g n]) = sat_log tr) by (rewrite sat_log_app; apply app_nil_r).
    constructor; cbn [ts_sky ts_up ts_down ts_point]; rewrite ?Lg.
    + exact V1.
    + exact V2.
    + intros g'. destruct (_ =? _)%nat; [exact Tu|apply V3].
    + intros F. destruct (Nat.eqb_spec producer g) as [<-|Ng]; [|apply V4; eapply fix0_prefix, F]. exfalso. destruct F as (_ & F). apply (F n), in_or_app. right. left. reflexivity.
    + intros F. apply V5. eapply fix0_prefix, F.
    + intros g' Hg Aw. rewrite asking_more in Aw. rewrite (Nat.eqb_sym g' g). destruct (Nat.eqb_spec g g') as [->|Ng]; [discriminate|]. apply V6; [exact Hg|exact Aw].
Qed.

Lemma anew_trun : forall ops s tr s' tr', winv s tr -> Forall (in_time t0 life) ops -> Forall (turned_to sats) ops -> trun s ops = Some (Ok (s', tr')) -> winv s' (tr ++ tr').
Proof.
  induction ops as [|o ops IH]; intros s tr s' tr' V Ti Tu R; cbn [t_run] in R.
  - injection R as <- <-. rewrite app_nil_r. exact V.
  - inversion Ti; subst. inversion Tu; subst. destruct (tstep s o) as [r1|] eqn:E; [|discriminate].
    destruct (anew_tstep s tr o r1 V ltac:(assumption) ltac:(assumption) E) as (s1 & ev & -> & V1).
    destruct (trun s1 ops) as [[[s2 tr2]| | |]|] eqn:E2; try discriminate. injection R as <- <-. rewrite app_assoc.
    exact (IH s1 (tr ++ ev) s2 tr2 V1 ltac:(assumption) ltac:(assumption) E2).
Qed.

Lemma anew_start : forall s, tcalm s -> silent s retx_max t0 -> point0 = ts_point s -> winv s [].
Proof.
  intros s [K1 K2 K3] ((Q1 & Q2 & Q3) & Hn) Hp. constructor; cbn [sat_log flat_map].
  - constructor.
    + exact K1.
    + intros k m l K. rewrite Q1 in K. destruct K.
    + intros n f X. discriminate.
    + intros n X. discriminate.
    + intros n e g o _ Pe Ho. destruct (c_pit _ K1 n e Pe) as (_ & _ & _ & B). specialize (B g o Ho). lia.
  - intros n u K. rewrite Q2 in K. destruct K.
  - exact K3.
  - intros (F & _). rewrite <- Hp. exact F.
  - intros _ X. discriminate.
  - intros g _ X. discriminate.
Qed.

Lemma anew_served : forall s tr g, winv s tr -> fix0 tr -> all_quiet s -> In g stations -> asking tr g = false.
Proof.
  intros s tr g V F (Q1 & Q2 & Q3) Hg. destruct (asking tr g) eqn:Aw; [|reflexivity]. exfalso. pose proof (w_sky s tr V) as I.
  assert (Pt : touch (sat_log tr) target = true -> False).
  { intros E. destruct (w_due s tr V F E) as [K|K]; [rewrite Q3 in K|rewrite Q2 in K]; exact K. }
  assert (K : forall d n, touch (sat_log tr) n = true -> dist n <= Z.of_nat d -> False).
  { induction d as [|d IH]; intros n Tn Hd; (destruct (f_cover _ _ I n Tn) as (Hn & G); destruct (Nat.eq_dec n target) as [->|Nt]; [auto|]; destruct (G Nt) as (k & m & J & Hm & D & C); pose proof (dist_pos m Hm)).
    - lia.
    - rewrite Q1 in C. destruct C as [(l & [])|[C|[]]]. apply (IH m); [exact (pends_touch _ _ _ C)|lia]. }
  destruct (w_wait s tr V g Hg Aw) as [(l & B)|[B|B]]; [rewrite Q2 in B; exact B| |rewrite Q3 in B; exact B].
  pose proof (pends_touch _ _ _ B) as Tn. destruct (f_cover _ _ I _ Tn) as (Hn & _). pose proof (dist_pos _ Hn).
  apply (K (Z.to_nat (dist (ts_point s g))) _ Tn). lia.
Qed.
End Calm.
