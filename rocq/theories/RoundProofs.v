(** Deadlines. *)
From Coq Require Import ZArith List Bool Lia Arith.
From Verif Require Import Base SatAddrModel ConstellationModel GeoTagModel PendingModel PendingProofs ReturnModel ReturnSpec ReturnProofs TripModel TripSpec TripProofs RecoverModel RecoverSpec RecoverProofs
  RoundModel RoundSpec.
Import ListNotations.
Open Scope Z_scope.

(** When the first Interest came to satellite [n] since the last Data. *)
Definition born (tr : rlog) (n : nat) : option Z :=
  fold_left (fun w x => if (fst (fst x) =? n)%nat then match snd (fst x) with Ask t _ _ _ => match w with Some b => Some b | None => Some t end | Answer _ _ => None | Refuse _ _ _ => w end else w) tr None.
Lemma born_more : forall tr x n, born (tr ++ [x]) n =
  if (fst (fst x) =? n)%nat then match snd (fst x) with Ask t _ _ _ => match born tr n with Some b => Some b | None => Some t end | Answer _ _ => None | Refuse _ _ _ => born tr n end else born tr n.
Proof. intros. unfold born. rewrite fold_left_app. reflexivity. Qed.
Lemma born_touch : forall tr n, touch tr n = match born tr n with Some _ => true | None => false end.
Proof.
  intros tr n. induction tr as [|x tr IH] using rev_ind; [reflexivity|]. rewrite born_more, touch_more. destruct (_ =? _)%nat; [|exact IH].
  destruct (snd (fst x)); [destruct (born tr n); reflexivity|reflexivity|exact IH].
Qed.

Lemma since_more : forall tr v g, since (tr ++ [v]) g = match snd v with
    | LAsk x => if (x =? g)%nat then match since tr g with Some a => Some a | None => Some (fst v) end else since tr g
    | LData x | LTurn x _ => if (x =? g)%nat then None else since tr g
    | LSat _ => since tr g
    end.
Proof. intros. unfold since. rewrite fold_left_app. reflexivity. Qed.
Lemma since_asking : forall tr g, asking (map snd tr) g = match since tr g with Some _ => true | None => false end.
Proof.
  intros tr g. induction tr as [|[t v] tr IH] using rev_ind; [reflexivity|]. rewrite map_app. cbn [map snd]. rewrite asking_more, since_more. cbn [snd fst].
  destruct v as [x|x|x|x n]; [exact IH|..]; (destruct (_ =? _)%nat; cbn [orb andb negb]; [|exact IH]); [destruct (since tr g); reflexivity|reflexivity|reflexivity].
Qed.

(** ** Times of departure *)
Lemma repeat_combine : forall (A : Type) (t : Z) (l : list A), combine l (repeat t (List.length l)) = map (fun x => (x, t)) l.
Proof. induction l as [|x l IH]; [reflexivity|]. cbn. rewrite IH. reflexivity. Qed.
Lemma stamp_len : forall t l n, (List.length l <= n)%nat -> List.length (stamp t l n) = n.
Proof. intros. unfold stamp. rewrite app_length, repeat_length. lia. Qed.
Lemma combine_app2 : forall (A B : Type) (a b : list A) (c e : list B), List.length a = List.length c -> combine (a ++ b) (c ++ e) = combine a c ++ combine b e.
Proof. induction a as [|x a IH]; intros b [|y c] e H; cbn in *; try discriminate; [reflexivity|]. rewrite IH by lia. reflexivity. Qed.
Lemma stamp_new : forall (A : Type) t (l new : list A) z, List.length z = List.length l -> combine (l ++ new) (stamp t z (List.length (l ++ new))) = combine l z ++ map (fun x => (x, t)) new.
Proof.
  intros A t l new z H. unfold stamp. rewrite app_length, H. replace (List.length l + List.length new - List.length l)%nat with (List.length new) by lia.
  rewrite combine_app2 by congruence. rewrite repeat_combine. reflexivity.
Qed.
Lemma stamp_same : forall t l, stamp t l (List.length l) = l.
Proof. intros. unfold stamp. rewrite Nat.sub_diag. apply app_nil_r. Qed.

Lemma without_take : forall (A : Type) i (l : list A) x r z, take_out i l = Some (x, r) -> List.length z = List.length l ->
  List.length (without i z) = List.length r /\ exists y, In (x, y) (combine l z) /\
    (forall v, In v (combine r (without i z)) -> In v (combine l z)) /\ (forall v, In v (combine l z) -> v = (x, y) \/ In v (combine r (without i z))) /\
    (forall v, In v (without i z) -> In v z).
Proof.
  intros A i. induction i as [|i IH]; intros [|a l] x r [|b z] T L; cbn in T, L; try discriminate.
  - injection T as -> ->. unfold without. cbn. split; [lia|]. exists b. split; [left; reflexivity|]. split; [auto|]. split; [|auto]. intros v [<-|K]; auto.
  - destruct (take_out i l) as [[x' r']|] eqn:E; [|discriminate]. cbn in T. injection T as -> <-.
    destruct (IH l x r' z E ltac:(lia)) as (L' & y & P1 & P2 & P3 & P4). unfold without in *. cbn [take_out].
    destruct (take_out i z) as [[y' z']|] eqn:Ez.
    + cbn. split; [lia|]. exists y. split; [auto|]. split; [intros v [<-|K]; auto|]. split; [intros v [<-|K]; [auto|destruct (P3 v K); auto]|]. intros v [<-|K]; auto.
    + exfalso. apply take_spec in E. destruct E as (p & q & -> & ->). rewrite !app_length in *. cbn in *. lia.
Qed.

Section Deadlines.
Variable nw : network.
Variable h : host.
Variable nh : nat -> list face.
Variable scope : face -> bool.
Variable tag : Z * Z * Z.
Variable sats : list nat.
Variable target : nat.
Variable dist : nat -> Z.
Variable join : nat -> nat -> nat -> Prop.
Hypothesis scope_free : forall g, scope g = false.
Hypothesis dist_pos : forall n, In n sats -> 0 <= dist n.
Hypothesis join_sym : forall k n m, join k n m -> join k m n.
Hypothesis join_remote : forall k n m, In n sats -> join k n m -> remote_node nw n (IslFace k) = Ok m.
Hypothesis react : forall n f rq, In n sats -> from_far sats dist join n f -> rq_tag rq = Some tag -> rq_ingress rq = f -> rq_sup rq <> SUPPRESS ->
  (forall g, rq_scope rq g = false) ->
  (n = target /\ after_receive_interest nw h n (nh n) rq = Ok [SendInterest GroundFace]) \/
  (n <> target /\ exists k m, after_receive_interest nw h n (nh n) rq = Ok [SendInterest (IslFace k)] /\ join k n m /\ In m sats /\ dist m < dist n).
Variable stations : list nat.
Variable producer : nat.
Hypothesis here : In producer stations.
Variables t0 life : Z.
Variable point0 : nat -> nat.
Variable d : Z.
Hypothesis d_pos : 0 <= d.

Notation far := (from_far sats dist join).
Notation rstep := (r_step nw h nh scope tag).
Notation tstep := (t_step nw h nh scope tag stations producer).
Notation trun := (t_run nw h nh scope tag stations producer).
Notation mstep := (m_step nw h nh scope tag stations producer d).
Notation mrun := (m_run nw h nh scope tag stations producer d).
Notation fresh_sky := (anew sats target dist join t0 life).
Notation kept := (winv sats target dist join stations producer t0 life point0).
Notation fix0 := (fixed target producer point0).

(** From the arrival of the first Interest to that of the Data. *)
Definition budget (n : nat) : Z := (2 * dist n + 2) * d.
Lemma budget_less : forall n m, In m sats -> dist m < dist n -> budget m + 2 * d <= budget n.
Proof. intros n m Hm H. unfold budget. pose proof (dist_pos m Hm). nia. Qed.

(** What a satellite does. *)
Definition reacts (s : rstate) (lg : rlog) (n : nat) (p : pop) (ev : list pev) (new : list flight) : Prop :=
  (exists t f l, p = Ask t f (Some tag) l /\
     (touch lg n = true \/ (n = target /\ In (ASent GroundFace (Some tag)) ev) \/ (n <> target /\ exists k m, In (mkFl k m (PAsk l)) new /\ join k n m /\ In m sats /\ dist m < dist n))) \/
  (exists t f, p = Answer t f /\ (forall g, pends lg n g = true -> g <> f \/ g = GroundFace -> In (AData g) ev) /\
     (forall k m, In (AData (IslFace k)) ev -> join k n m -> In (mkFl k m PData) new) /\
     (f = GroundFace \/ exists k m, f = IslFace k /\ join k n m /\ dist m < dist n)).

Lemma sat_reacts : forall s lg o s' x, fresh_sky s lg -> timely t0 life o -> at_sat sats o -> rstep s o = Some (Ok (s', x)) ->
  exists n p air ev new, did tag s o n p air /\ x = (n, p, ev) /\ rs_air s' = air ++ new /\ pop_time p = op_time o /\ rs_now s <= op_time o /\ rs_now s' = op_time o /\ In n sats /\ reacts s lg n p ev new.
Proof.
  intros s tr o s' x F (Tm & Lf) Sa R. pose proof F as [F1 F2 F3 F4 F5].
  destruct (step_did nw h nh scope tag s o _ R) as (n & p & air & D & Eq & Hn & Pt). symmetry in Eq.
  destruct (calm_did tag sats dist join s o n p air F1 Sa D) as (Hs & A1 & [(f & l & -> & Ff & A2)|(f & -> & Ff & A2)]).
  - destruct (calm_ask nw h nh scope tag sats target dist join scope_free dist_pos join_sym join_remote react producer s air n f (op_time o) l F1 Hs Ff Hn A1)
      as (s1 & e' & ev & new & E & _ & _ & N & Ea & _ & _ & _ & _ & Ev). rewrite Eq in E. injection E as -> ->.
    exists n, (Ask (op_time o) f (Some tag) l), air, ev, new. split; [exact D|]. split; [reflexivity|]. split; [exact Ea|]. split; [reflexivity|]. split; [exact Hn|]. split; [exact N|]. split; [exact Hs|].
    left. exists (op_time o), f, l. split; [reflexivity|]. destruct (touch tr n) eqn:Tn; [auto|]. right.
    destruct Ev as [(_ & _ & e & g & oo & Pe & Ho & Lt)|[(-> & -> & _)|(Nt & k & m & -> & -> & J & Hm & Dm)]].
    + pose proof (F5 n e g oo Tn Pe Ho). lia.
    + left. split; [reflexivity|left; reflexivity].
    + right. split; [exact Nt|]. exists k, m. split; [left; reflexivity|auto].
  - destruct (calm_data nw h nh scope tag sats target dist join scope_free dist_pos join_sym join_remote react producer s air n f (op_time o) F1 Hs Hn A1)
      as (s1 & ev & new & E & _ & _ & N & Ea & _ & _ & Ans & Out & _). rewrite Eq in E. injection E as -> ->.
    exists n, (Answer (op_time o) f), air, ev, new. split; [exact D|]. split; [reflexivity|]. split; [exact Ea|]. split; [reflexivity|]. split; [exact Hn|]. split; [exact N|]. split; [exact Hs|].
    right. exists (op_time o), f. split; [reflexivity|]. split; [|auto]. intros g K Hg. destruct (F3 n g K) as (e & y & Pe & Ee & Re & Lx). apply (Ans e g y Pe); [lia|exact Re|lia|exact Hg].
Qed.

Definition passes (A : list (flight * Z)) (lg : rlog) (n : nat) (b : Z) : Prop :=
  exists k m, join k n m /\ In m sats /\ dist m < dist n /\
    ((exists l y, In (mkFl k m (PAsk l), y) A /\ y <= b) \/ (exists b', born lg m = Some b' /\ b' <= b + d /\ pends lg m (IslFace k) = true) \/
     (exists y, In (mkFl k n PData, y) A /\ y <= b + budget n - d)).

Record facts (U : list (nat * rising * Z)) (A : list (flight * Z)) (D : list (nat * nat * falling * Z)) (point : nat -> nat) (lg : rlog) (asked : nat -> option Z) (now : Z) : Prop := mkFacts {
  x_past : forall n b, born lg n = Some b -> b <= now /\ In n sats;
  x_node : forall n b, born lg n = Some b -> n <> target -> passes A lg n b;
  x_due : forall b, born lg target = Some b -> (exists y, In (target, producer, DAsk, y) D /\ y <= b) \/ (exists y, In (target, UData, y) U /\ y <= b + d);
  x_wait : forall g a, In g stations -> asked g = Some a ->
    (exists l y, In (point g, UAsk l, y) U /\ y <= a) \/
    (exists b, born lg (point g) = Some b /\ b <= a + d /\ pends lg (point g) GroundFace = true) \/
    (exists y, In (point g, g, DData, y) D /\ y <= a + d + budget (point g)) }.

Definition young (t : Z) (U : list (nat * rising * Z)) (A : list (flight * Z)) (D : list (nat * nat * falling * Z)) : Prop :=
  (forall v y, In (v, y) U -> t - d <= y) /\ (forall v y, In (v, y) A -> t - d <= y) /\ (forall v y, In (v, y) D -> t - d <= y).

Lemma in_budget : forall U A D point lg asked now t n b, facts U A D point lg asked now -> young t U A D -> born lg n = Some b -> t <= b + budget n.
Proof.
  intros U A D point lg asked now t n b F (Y1 & Y2 & Y3) Hb. pose proof F as [F1 F2 F3 F4].
  assert (K : forall e n b, born lg n = Some b -> dist n <= Z.of_nat e -> t <= b + budget n).
  { induction e as [|e IH]; intros n' b' Hb' He; (destruct (F1 n' b' Hb') as (_ & Hs); pose proof (dist_pos n' Hs) as Hp; assert (Bp : 2 * d <= budget n') by (unfold budget; nia);
      destruct (Nat.eq_dec n' target) as [->|Nt];
      [destruct (F3 b' Hb') as [(y & K & L)|(y & K & L)]; [pose proof (Y3 _ _ K)|pose proof (Y1 _ _ K)]; lia|];
      destruct (F2 n' b' Hb' Nt) as (k & m & J & Hm & Dm & C); pose proof (dist_pos m Hm)).
    - lia.
    - destruct C as [(l & y & C & L)|[(b1 & C & L & _)|(y & C & L)]].
      + pose proof (Y2 _ _ C). lia.
      + pose proof (IH m b1 C ltac:(lia)). pose proof (budget_less n' m Hm Dm). lia.
      + pose proof (Y2 _ _ C). lia. }
  destruct (F1 n b Hb) as (_ & Hs). pose proof (dist_pos n Hs). apply (K (Z.to_nat (dist n)) n b Hb). lia.
Qed.

Lemma facts_later : forall U A D point lg asked now t, facts U A D point lg asked now -> now <= t -> facts U A D point lg asked t.
Proof. intros U A D point lg asked now t [F1 F2 F3 F4] H. constructor; [|assumption..]. intros n b K. destruct (F1 n b K). split; [lia|assumption]. Qed.

Lemma facts_ext : forall U A D point lg asked asked' now, facts U A D point lg asked now -> (forall g, asked' g = asked g) -> facts U A D point lg asked' now.
Proof. intros U A D point lg asked asked' now [F1 F2 F3 F4] H. constructor; [assumption..|]. intros g a Hg K. rewrite H in K. auto. Qed.

(** A satellite receives something. *)
Lemma facts_sat : forall s U A D point lg asked now t n p ev new U' A', facts U A D point lg asked now -> now <= t -> young t U A D -> In n sats -> pop_time p = t -> reacts s lg n p ev new ->
  (forall v, In v U -> In v U' \/ (exists l y, v = (n, UAsk l, y) /\ p = Ask t GroundFace (Some tag) l) \/ exists y, v = (n, UData, y) /\ p = Answer t GroundFace) ->
  (forall v, In v A -> In v A' \/ (exists k l y, v = (mkFl k n (PAsk l), y) /\ p = Ask t (IslFace k) (Some tag) l) \/ exists k y, v = (mkFl k n PData, y) /\ p = Answer t (IslFace k)) ->
  facts U' (A' ++ map (fun x => (x, t)) new) (D ++ map (fun x => (x, t)) (downs stations n ev)) point (lg ++ [(n, p, ev)]) asked t.
Proof.
  intros s U A D point lg asked now t n p ev new U' A' F Hnow Y Hs Pt Re Hu Ha. pose proof F as [F1 F2 F3 F4]. pose proof Y as (Y1 & Y2 & Y3).
  assert (InA : forall v, In v A' -> In v (A' ++ map (fun x => (x, t)) new)) by (intros; apply in_or_app; auto).
  assert (InD : forall v, In v D -> In v (D ++ map (fun x => (x, t)) (downs stations n ev))) by (intros; apply in_or_app; auto).
  destruct Re as [(t' & f & l & -> & Re)|(t' & f & -> & Re1 & Re2 & Re3)]; cbn [pop_time] in Pt; subst t'.
  - assert (Bm : forall m, born (lg ++ [(n, Ask t f (Some tag) l, ev)]) m = if (n =? m)%nat then match born lg m with Some b => Some b | None => Some t end else born lg m) by (intros; rewrite born_more; reflexivity).
    assert (Bk : forall m b, born lg m = Some b -> born (lg ++ [(n, Ask t f (Some tag) l, ev)]) m = Some b) by (intros m b K; rewrite Bm, K; destruct (_ =? _)%nat; reflexivity).
    assert (Bn : exists b, born (lg ++ [(n, Ask t f (Some tag) l, ev)]) n = Some b /\ b <= t).
    { rewrite Bm, Nat.eqb_refl. destruct (born lg n) as [b|] eqn:E; [exists b|exists t]; (split; [reflexivity|]); [destruct (F1 n b E)|]; lia. }
    assert (Pk : forall n' g, pends lg n' g = true -> pends (lg ++ [(n, Ask t f (Some tag) l, ev)]) n' g = true).
    { intros n' g K. rewrite pends_more. cbn [fst snd]. rewrite K. destruct (_ =? _)%nat; [apply orb_true_r|reflexivity]. }
    assert (Pf : pends (lg ++ [(n, Ask t f (Some tag) l, ev)]) n f = true) by (rewrite pends_more; cbn [fst snd]; rewrite Nat.eqb_refl, face_refl; reflexivity).
    assert (New : forall m b, born (lg ++ [(n, Ask t f (Some tag) l, ev)]) m = Some b -> born lg m = Some b \/ (m = n /\ b = t /\ touch lg n = false)).
    { intros m b. rewrite Bm. destruct (Nat.eqb_spec n m) as [<-|]; [|auto]. rewrite born_touch. destruct (born lg n); [auto|]. intros K. injection K as <-. auto. }
    constructor.
    + intros m b K. destruct (New m b K) as [K1|(-> & -> & _)]; [destruct (F1 m b K1); split; [lia|assumption]|split; [lia|exact Hs]].
    + intros m b K Nt. destruct (New m b K) as [K1|(-> & -> & Tn)].
      * destruct (F2 m b K1 Nt) as (k & m' & J & Hm & Dm & C). exists k, m'. split; [exact J|]. split; [exact Hm|]. split; [exact Dm|].
        destruct C as [(l' & y & C & L)|[(b1 & C & L & P)|(y & C & L)]].
        -- destruct (Ha _ C) as [C1|[(k' & l1 & y' & C1 & C2)|(k' & y' & C1 & _)]]; [left; eauto| |discriminate]. injection C1 as -> -> _ _. injection C2 as ->.
           right. left. destruct Bn as (b1 & Bn & Lb). exists b1. split; [exact Bn|]. split; [pose proof (Y2 _ _ C); lia|exact Pf].
        -- right. left. exists b1. auto.
        -- right. right. destruct (Ha _ C) as [C1|[(k' & l1 & y' & C1 & C2)|(k' & y' & C1 & C2)]]; [eauto|discriminate|discriminate].
      * destruct Re as [Re|[(Re & _)|(_ & k & m' & Re & J & Hm & Dm)]]; [congruence|congruence|]. exists k, m'. split; [exact J|]. split; [exact Hm|]. split; [exact Dm|]. left. exists l, t. split; [|lia].
        apply in_or_app. right. apply in_map_iff. eauto.
    + intros b K. destruct (New target b K) as [K1|(En & -> & Tn)].
      * destruct (F3 b K1) as [(y & C & L)|(y & C & L)]; [left; eauto|]. right. destruct (Hu _ C) as [C1|[(l' & y' & C1 & _)|(y' & _ & C1)]]; [eauto|discriminate|discriminate].
      * destruct Re as [Re|[(_ & Re)|(Nt & _)]]; [congruence| |congruence].
        left. exists t. split; [|lia]. apply in_or_app. right. apply in_map_iff. exists (target, producer, DAsk). split; [reflexivity|]. rewrite <- En. apply in_downs. exists producer. split; [exact here|]. left. eauto.
    + intros g a Hg K. destruct (F4 g a Hg K) as [(l' & y & C & L)|[(b & C & L & P)|(y & C & L)]].
      * destruct (Hu _ C) as [C1|[(l1 & y' & C1 & C2)|(y' & C1 & _)]]; [left; eauto| |discriminate]. injection C1 as -> _ _. injection C2 as ->.
        right. left. destruct Bn as (b1 & Bn & Lb). exists b1. split; [exact Bn|]. split; [pose proof (Y1 _ _ C); lia|exact Pf].
      * right. left. exists b. auto.
      * right. right. eauto.
  - assert (Bm : forall m, born (lg ++ [(n, Answer t f, ev)]) m = if (n =? m)%nat then None else born lg m) by (intros; rewrite born_more; reflexivity).
    assert (Bk : forall m b, born (lg ++ [(n, Answer t f, ev)]) m = Some b -> m <> n /\ born lg m = Some b).
    { intros m b. rewrite Bm. destruct (Nat.eqb_spec n m) as [<-|]; [discriminate|auto]. }
    assert (Pm : forall m g, m <> n -> pends (lg ++ [(n, Answer t f, ev)]) m g = pends lg m g).
    { intros m g Nm. rewrite pends_more. cbn [fst snd]. destruct (Nat.eqb_spec n m) as [<-|]; [destruct (Nm eq_refl)|reflexivity]. }
    constructor.
    + intros m b K. destruct (Bk m b K) as (_ & K1). destruct (F1 m b K1). split; [lia|assumption].
    + intros m b K Nt. destruct (Bk m b K) as (Nm & K1). destruct (F2 m b K1 Nt) as (k & m' & J & Hm & Dm & C). exists k, m'. split; [exact J|]. split; [exact Hm|]. split; [exact Dm|].
      destruct C as [(l' & y & C & L)|[(b1 & C & L & P)|(y & C & L)]].
      * left. destruct (Ha _ C) as [C1|[(k' & l1 & y' & _ & C2)|(k' & y' & C1 & C2)]]; [eauto|discriminate|discriminate].
      * destruct (Nat.eq_dec m' n) as [->|Nm'].
        -- right. right. exists t. split.
           ++ apply in_or_app. right. apply in_map_iff. exists (mkFl k m PData). split; [reflexivity|]. apply Re2; [|apply join_sym, J]. apply Re1; [exact P|]. left. intros <-.
              destruct Re3 as [Re3|(k' & m1 & Re3 & J' & D')]; [discriminate|]. injection Re3 as <-.
              pose proof (join_remote k n m Hs (join_sym _ _ _ J)) as E1. rewrite (join_remote k n m1 Hs J') in E1. injection E1 as ->. lia.
           ++ pose proof (in_budget _ _ _ _ _ _ _ t n b1 F Y C). pose proof (budget_less m n Hs Dm). lia.
        -- right. left. exists b1. rewrite Pm by exact Nm'. rewrite Bm. destruct (Nat.eqb_spec n m'); [congruence|auto].
      * right. right. destruct (Ha _ C) as [C1|[(k' & l1 & y' & C1 & C2)|(k' & y' & C1 & C2)]]; [eauto|discriminate|]. injection C1 as _ C1 _. congruence.
    + intros b K. destruct (Bk target b K) as (Nm & K1). destruct (F3 b K1) as [(y & C & L)|(y & C & L)]; [left; eauto|]. right.
      destruct (Hu _ C) as [C1|[(l' & y' & C1 & _)|(y' & C1 & _)]]; [eauto|discriminate|]. injection C1 as C1 _. congruence.
    + intros g a Hg K. destruct (F4 g a Hg K) as [(l' & y & C & L)|[(b & C & L & P)|(y & C & L)]].
      * left. destruct (Hu _ C) as [C1|[(l1 & y' & _ & C2)|(y' & C1 & _)]]; [eauto|discriminate|discriminate].
      * destruct (Nat.eq_dec (point g) n) as [En|Nm'].
        -- right. right. exists t. split.
           ++ apply in_or_app. right. apply in_map_iff. exists (n, g, DData). split; [congruence|]. apply in_downs. exists g. split; [exact Hg|]. right. split; [|reflexivity]. apply Re1; [|auto]. rewrite <- En. exact P.
           ++ pose proof (in_budget _ _ _ _ _ _ _ t (point g) b F Y C). lia.
        -- right. left. exists b. rewrite Pm by exact Nm'. rewrite Bm. destruct (Nat.eqb_spec n (point g)); [congruence|auto].
      * right. right. eauto.
Qed.

Record timed (S : stamped) (tr : list (Z * tevent)) : Prop := mkTimed {
  z_kept : kept (sm_state S) (map snd tr);
  z_up : List.length (sm_up S) = List.length (ts_up (sm_state S));
  z_air : List.length (sm_air S) = List.length (rs_air (ts_sky (sm_state S)));
  z_down : List.length (sm_down S) = List.length (ts_down (sm_state S));
  z_young : forall x, In x (sm_up S ++ sm_air S ++ sm_down S) -> rs_now (ts_sky (sm_state S)) - d <= x;
  z_facts : fix0 (map snd tr) -> facts (combine (ts_up (sm_state S)) (sm_up S)) (combine (rs_air (ts_sky (sm_state S))) (sm_air S)) (combine (ts_down (sm_state S)) (sm_down S))
    (ts_point (sm_state S)) (sat_log (map snd tr)) (since tr) (rs_now (ts_sky (sm_state S))) }.

Lemma all_young : forall t (U : list (nat * rising)) (A : list flight) (D : list (nat * nat * falling)) u a e, (forall x, In x (u ++ a ++ e) -> t - d <= x) -> young t (combine U u) (combine A a) (combine D e).
Proof. intros t U A D u a e H. repeat split; intros v y K; apply in_combine_r in K; apply H; rewrite !in_app_iff; auto. Qed.

(** Nothing more can happen after the deadline while a station waits. *)
Lemma timed_bound : forall S tr t g a, timed S tr -> (forall x, In x (sm_up S ++ sm_air S ++ sm_down S) -> t - d <= x) -> fix0 (map snd tr) -> In g stations -> since tr g = Some a ->
  t <= a + (2 * dist (ts_point (sm_state S) g) + 4) * d.
Proof.
  intros S tr t g a [K _ _ _ _ F] Y Fx Hg A. specialize (F Fx). apply (all_young _ (ts_up (sm_state S)) (rs_air (ts_sky (sm_state S))) (ts_down (sm_state S))) in Y. pose proof Y as (Y1 & Y2 & Y3).
  pose proof (dist_pos _ (w_point _ _ _ _ _ _ _ _ _ _ _ K g)) as P. assert (E : (2 * dist (ts_point (sm_state S) g) + 4) * d = budget (ts_point (sm_state S) g) + 2 * d) by (unfold budget; lia). rewrite E.
  assert (0 <= budget (ts_point (sm_state S) g)) by (unfold budget; nia).
  destruct (x_wait _ _ _ _ _ _ _ F g a Hg A) as [(l & y & C & L)|[(b & C & L & _)|(y & C & L)]].
  - pose proof (Y1 _ _ C). lia.
  - pose proof (in_budget _ _ _ _ _ _ _ _ _ _ F Y C). lia.
  - pose proof (Y3 _ _ C). lia.
Qed.
Lemma timed_next : forall S tr o r g a, timed S tr -> mstep S o = Some r -> fix0 (map snd tr) -> In g stations -> since tr g = Some a ->
  top_time (sm_state S) o <= a + (2 * dist (ts_point (sm_state S) g) + 4) * d.
Proof.
  intros S tr o r g a V R Fx Hg A. apply (timed_bound S tr); try assumption. unfold m_step in R. destruct (forallb _ _) eqn:G; [|discriminate]. rewrite forallb_forall in G. intros x K. apply Z.leb_le, G, K.
Qed.

Lemma in_stamp : forall t l n y, In y (stamp t l n) -> In y l \/ y = t.
Proof. intros t l n y K. unfold stamp in K. apply in_app_or in K. destruct K as [K|K]; [auto|]. right. exact (repeat_spec _ _ _ K). Qed.
Lemma stamp_keep : forall (A : Type) t z (l : list A), List.length z = List.length l -> stamp t z (List.length l) = z.
Proof. intros A t z l <-. apply stamp_same. Qed.

Lemma facts_through : forall S tr o up zup sky x, timed S tr -> timely t0 life o -> at_sat sats o ->
  (forall y, In y (sm_up S ++ sm_air S ++ sm_down S) -> op_time o - d <= y) ->
  (forall v, In v (combine (ts_up (sm_state S)) (sm_up S)) -> In v (combine up zup) \/
     (exists n l y, v = (n, UAsk l, y) /\ o = RAsk (op_time o) n l) \/ exists n y, v = (n, UData, y) /\ o = RData (op_time o) n) ->
  rstep (ts_sky (sm_state S)) o = Some (Ok (sky, x)) ->
  (fix0 (map snd tr) -> facts (combine up zup)
    (combine (rs_air sky) (stamp (op_time o) match o with RMove _ i => without i (sm_air S) | _ => sm_air S end (List.length (rs_air sky))))
    (combine (ts_down (sm_state S) ++ downs stations (fst (fst x)) (snd x)) (stamp (op_time o) (sm_down S) (List.length (ts_down (sm_state S) ++ downs stations (fst (fst x)) (snd x)))))
    (ts_point (sm_state S)) (sat_log (map snd tr) ++ [x]) (since tr) (op_time o)) /\ rs_now sky = op_time o /\
  exists air new, rs_air sky = air ++ new /\ List.length match o with RMove _ i => without i (sm_air S) | _ => sm_air S end = List.length air.
Proof.
  intros S tr o up zup sky x [K Lu La Ld Y F] Ti Sa G Hu R.
  destruct (sat_reacts _ _ _ _ _ (w_sky _ _ _ _ _ _ _ _ _ _ _ K) Ti Sa R) as (n & p & air & ev & new & D & -> & Ea & Pt & Hn & Hn' & Hs & Re). cbn [fst snd].
  assert (L : List.length match o with RMove _ i => without i (sm_air S) | _ => sm_air S end = List.length air /\
    (forall v, In v (combine (rs_air (ts_sky (sm_state S))) (sm_air S)) -> In v (combine air match o with RMove _ i => without i (sm_air S) | _ => sm_air S end) \/
      (exists k l y, v = (mkFl k n (PAsk l), y) /\ p = Ask (op_time o) (IslFace k) (Some tag) l) \/ exists k y, v = (mkFl k n PData, y) /\ p = Answer (op_time o) (IslFace k))).
  { destruct o as [t m l|t m|t i]; cbn [did] in D.
    - destruct D as (_ & _ & ->). auto.
    - destruct D as (_ & _ & ->). auto.
    - destruct D as (f & T & En & Ep). destruct (without_take _ i _ f air (sm_air S) T La) as (L & y & P1 & P2 & P3 & _). split; [exact L|]. intros v Kv. destruct (P3 v Kv) as [->|Kv']; [|auto]. right.
      destruct f as [k m w]. cbn [fl_to fl_what fl_chan] in *. subst m. destruct w as [l| |]; [left; eauto|right; eauto|].
      exfalso. rewrite Ep in Re. destruct Re as [(t' & f & l & Re & _)|(t' & f & Re & _)]; discriminate. }
  destruct L as (L & Hair). split; [|split; [exact Hn'|exists air, new; auto]].
  intros Fx. specialize (F Fx).
  rewrite Ea. rewrite stamp_new by exact L. rewrite stamp_new by exact Ld.
  refine (facts_sat (ts_sky (sm_state S)) _ _ _ _ _ _ _ (op_time o) n p ev new _ _ F Hn _ Hs Pt Re _ Hair).
  - apply all_young. exact G.
  - intros v Kv. destruct (Hu v Kv) as [|[(m & l & y & -> & Eo)|(m & y & -> & Eo)]]; [auto|..]; rewrite Eo in D; cbn [did] in D; destruct D as (-> & -> & _); right; [left|right]; eauto.
Qed.

Lemma snd_pairs : forall (t : Z) (ev : list tevent), map snd (map (pair t) ev) = ev.
Proof. intros t ev. rewrite map_map. apply map_id. Qed.

Lemma still_young : forall S t nu na ne u a e, (forall y, In y (sm_up S ++ sm_air S ++ sm_down S) -> t - d <= y) ->
  (forall y, In y u -> In y (sm_up S)) -> (forall y, In y a -> In y (sm_air S)) -> (forall y, In y e -> In y (sm_down S)) ->
  forall y, In y (stamp t u nu ++ stamp t a na ++ stamp t e ne) -> t - d <= y.
Proof.
  intros S t nu na ne u a e H Hu Ha He y Ky. rewrite !in_app_iff in Ky. destruct Ky as [Ky|[Ky|Ky]]; apply in_stamp in Ky; (destruct Ky as [Ky| ->]; [|lia]); apply H; rewrite !in_app_iff; auto.
Qed.

Lemma without_sub : forall i (z : list Z) y, In y (without i z) -> In y z.
Proof. intros i z y K. unfold without in K. destruct (take_out i z) as [[x r]|] eqn:T; [|exact K]. apply take_in in T. destruct T as (_ & T & _). auto. Qed.

Lemma timed_through : forall S tr o up zup s1 ev, timed S tr -> timely t0 life o -> at_sat sats o ->
  (forall y, In y (sm_up S ++ sm_air S ++ sm_down S) -> op_time o - d <= y) ->
  (forall v, In v (combine (ts_up (sm_state S)) (sm_up S)) -> In v (combine up zup) \/
     (exists n l y, v = (n, UAsk l, y) /\ o = RAsk (op_time o) n l) \/ exists n y, v = (n, UData, y) /\ o = RData (op_time o) n) ->
  List.length zup = List.length up -> (forall y, In y zup -> In y (sm_up S)) ->
  through stations up (sm_state S) (rstep (ts_sky (sm_state S)) o) = Some (Ok (s1, ev)) -> kept s1 (map snd tr ++ ev) ->
  timed (mkSm s1 (stamp (op_time o) zup (List.length (ts_up s1)))
    (stamp (op_time o) match o with RMove _ i => without i (sm_air S) | _ => sm_air S end (List.length (rs_air (ts_sky s1))))
    (stamp (op_time o) (sm_down S) (List.length (ts_down s1)))) (tr ++ map (pair (op_time o)) ev).
Proof.
  intros S tr o up zup s1 ev V Ti Sa G Hu Lz Hz E K1. unfold through in E. destruct (rstep (ts_sky (sm_state S)) o) as [[[sky x]| | |]|] eqn:R; try discriminate. injection E as <- <-.
  destruct (facts_through S tr o up zup sky x V Ti Sa G Hu R) as (Fa & Nw & air & new & Ea & La'). pose proof V as [K Lu La Ld Y F].
  constructor; cbn [sm_state sm_up sm_air sm_down ts_sky ts_up ts_down ts_point].
  - rewrite map_app, snd_pairs. exact K1.
  - apply stamp_len. lia.
  - apply stamp_len. rewrite Ea, app_length, La'. lia.
  - apply stamp_len. rewrite app_length. lia.
  - rewrite Nw. apply (still_young S); auto. destruct o; auto. intros y. apply without_sub.
  - intros Fy. rewrite (stamp_keep _ _ zup) by exact Lz. rewrite map_app, sat_log_app, snd_pairs, Nw. cbn [map sat_log flat_map]. rewrite app_nil_r.
    refine (facts_ext _ _ _ _ _ _ _ _ (Fa _) _).
    + destruct Fy as (H1 & H2). split; [exact H1|]. intros m Km. apply (H2 m). rewrite map_app. apply in_or_app. auto.
    + intros g. rewrite since_more. reflexivity.
Qed.

Lemma timed_step : forall S tr o r, timed S tr -> in_time t0 life o -> turned_to sats o -> mstep S o = Some r ->
  exists S' ev, r = Ok (S', ev) /\ tstep (sm_state S) o = Some (Ok (sm_state S', map snd ev)) /\ timed S' (tr ++ ev).
Proof.
  intros S tr o r V Ti Tu R. pose proof V as [K Lu La Ld Y F]. unfold m_step in R.
  destruct (forallb _ _) eqn:G; [|discriminate]. rewrite forallb_forall in G. assert (G' : forall y, In y (sm_up S ++ sm_air S ++ sm_down S) -> top_time (sm_state S) o - d <= y) by (intros y Ky; apply Z.leb_le, G, Ky). clear G.
  destruct (tstep (sm_state S) o) as [q|] eqn:E; [|discriminate].
  destruct (anew_tstep nw h nh scope tag sats target dist join scope_free dist_pos join_sym join_remote react stations producer here t0 life point0 _ _ o q K Ti Tu E) as (s1 & ev & -> & K1).
  injection R as <-. do 2 eexists. split; [reflexivity|]. cbn [sm_state]. split; [rewrite snd_pairs; reflexivity|].
  assert (Fx : fix0 (map snd (tr ++ map (pair (top_time (sm_state S) o)) ev)) -> fix0 (map snd tr)) by (intros (H1 & H2); split; [exact H1|]; intros m Km; apply (H2 m); rewrite map_app; apply in_or_app; auto).
  destruct o as [t g l|t i|t i|t i|g n]; cbn [top_time in_time turned_to] in *.
  - cbn [t_step] in E. destruct (Z.leb_spec (rs_now (ts_sky (sm_state S))) t) as [Hn|]; [|discriminate]. injection E as <- <-.
    cbn [map]. constructor; cbn [sm_state sm_up sm_air sm_down ts_sky ts_up ts_down ts_point rs_air rs_now].
    + rewrite map_app. exact K1.
    + apply stamp_len. rewrite app_length. lia.
    + apply stamp_len. lia.
    + apply stamp_len. lia.
    + apply (still_young S); auto.
    + intros Fy. specialize (F (Fx Fy)). rewrite stamp_new by exact Lu. rewrite (stamp_keep _ t (sm_air S)), (stamp_keep _ t (sm_down S)) by assumption.
      rewrite map_app, sat_log_app. cbn [map snd]. rewrite app_nil_r.
      apply facts_later with (t := t) in F; [|exact Hn]. destruct F as [F1 F2 F3 F4]. constructor; [exact F1|exact F2| |].
      * intros b Kb. destruct (F3 b Kb) as [C|(y & C & L)]; [auto|]. right. exists y. split; [apply in_or_app; auto|exact L].
      * intros g' a Hg Aw. rewrite since_more in Aw. cbn [snd fst] in Aw. destruct (Nat.eqb_spec g g') as [<-|Ng].
        -- destruct (since tr g) as [a'|] eqn:Es.
           ++ injection Aw as <-. destruct (F4 g a' Hg Es) as [(l' & y & C & L)|C]; [|auto]. left. exists l', y. split; [apply in_or_app; auto|exact L].
           ++ injection Aw as <-. left. exists l, t. split; [apply in_or_app; right; left; reflexivity|lia].
        -- destruct (F4 g' a Hg Aw) as [(l' & y & C & L)|C]; [|auto]. left. exists l', y. split; [apply in_or_app; auto|exact L].
  - cbn [t_step] in E. destruct (take_out i (ts_up (sm_state S))) as [[[n u] up]|] eqn:T; [|discriminate].
    destruct (without_take _ i _ _ up (sm_up S) T Lu) as (L & y0 & P1 & P2 & P3 & P4). pose proof (take_in _ _ _ _ _ T) as (T1 & _). destruct (w_up _ _ _ _ _ _ _ _ _ _ _ K _ _ T1) as (Hs & Hl).
    destruct u as [l|]; [refine (timed_through S tr (RAsk t n l) up _ s1 ev V _ Hs G' _ L P4 E K1)|refine (timed_through S tr (RData t n) up _ s1 ev V _ Hs G' _ L P4 E K1)].
    1, 3: split; [exact Ti|assumption || exact Logic.I].
    all: cbn [op_time]; intros v Kv; (destruct (P3 v Kv) as [->|]; [|auto]); right; first [left; do 3 eexists; split; reflexivity|right; do 2 eexists; split; reflexivity].
  - refine (timed_through S tr (RMove t i) (ts_up (sm_state S)) (sm_up S) s1 ev V (conj Ti Logic.I) Logic.I G' _ Lu _ E K1); auto.
  - cbn [t_step] in E. destruct (take_out i (ts_down (sm_state S))) as [[[[n g] w] down]|] eqn:T; [|discriminate].
    destruct (without_take _ i _ _ down (sm_down S) T Ld) as (L & y0 & P1 & P2 & P3 & P4).
    assert (Y0 : t - d <= y0) by (apply G'; apply in_combine_r in P1; rewrite !in_app_iff; auto).
    destruct (Z.leb_spec (rs_now (ts_sky (sm_state S))) t) as [Hn|]; [|discriminate]. destruct w; injection E as <- <-;
      (constructor; cbn [sm_state sm_up sm_air sm_down ts_sky ts_up ts_down ts_point rs_air rs_now];
        [rewrite map_app, snd_pairs; exact K1|apply stamp_len|apply stamp_len; lia|apply stamp_len; lia|apply (still_young S); auto|]).
    + destruct (_ && _); [rewrite app_length|]; lia.
    + intros Fy. specialize (F (Fx Fy)). pose proof (w_prod _ _ _ _ _ _ _ _ _ _ _ K (Fx Fy)) as Pp. rewrite (stamp_keep _ t (sm_air S)), (stamp_keep _ t (without i (sm_down S))) by assumption.
      cbn [map]. rewrite app_nil_r.
      apply facts_later with (t := t) in F; [|exact Hn]. destruct F as [F1 F2 F3 F4].
      set (U' := combine _ (stamp t (sm_up S) _)).
      assert (HU : forall v, In v (combine (ts_up (sm_state S)) (sm_up S)) -> In v U').
      { intros v Kv. unfold U'. destruct (_ && _); [rewrite stamp_new by exact Lu; apply in_or_app; auto|rewrite stamp_keep by exact Lu; exact Kv]. }
      constructor; [exact F1|exact F2| |].
      * intros b Kb. destruct (F3 b Kb) as [(y & C & Ly)|(y & C & Ly)]; [|right; eauto]. destruct (P3 _ C) as [C1|C1]; [|left; eauto].
        injection C1 as -> -> ->. right. exists t. split; [|lia]. unfold U'. rewrite Pp, !Nat.eqb_refl. cbn [andb]. rewrite stamp_new by exact Lu. apply in_or_app. right. left. reflexivity.
      * intros g' a Hg Aw. destruct (F4 g' a Hg Aw) as [(l' & y & C & Ly)|[C|(y & C & Ly)]]; [left; eauto|auto|].
        right. right. destruct (P3 _ C) as [C1|C1]; [discriminate|eauto].
    + lia.
    + intros Fy. specialize (F (Fx Fy)). rewrite (stamp_keep _ t (sm_up S)), (stamp_keep _ t (sm_air S)), (stamp_keep _ t (without i (sm_down S))) by assumption.
      rewrite map_app, snd_pairs, sat_log_app. replace (sat_log (if (_ =? n)%nat then [LData g] else [])) with (@nil (nat * pop * list pev)) by (destruct (_ =? _)%nat; reflexivity). rewrite app_nil_r.
      apply facts_later with (t := t) in F; [|exact Hn]. destruct F as [F1 F2 F3 F4]. constructor; [exact F1|exact F2| |].
      * intros b Kb. destruct (F3 b Kb) as [(y & C & Ly)|C]; [|auto]. left. destruct (P3 _ C) as [C1|C1]; [discriminate|eauto].
      * intros g' a Hg Aw.
        assert (Aw' : since tr g' = Some a /\ (g' = g -> ts_point (sm_state S) g <> n)).
        { destruct (Nat.eqb_spec (ts_point (sm_state S) g) n) as [En|En].
          - cbn [map] in Aw. rewrite since_more in Aw. cbn [snd] in Aw. destruct (Nat.eqb_spec g g') as [<-|Ng]; [discriminate|]. split; [exact Aw|]. intros ->. destruct (Ng eq_refl).
          - cbn [map] in Aw. rewrite app_nil_r in Aw. auto. }
        destruct Aw' as (Aw1 & Aw2). destruct (F4 g' a Hg Aw1) as [C|[C|(y & C & Ly)]]; [auto|auto|].
        right. right. destruct (P3 _ C) as [C1|C1]; [|eauto]. injection C1 as C1 C2 _. subst g'. destruct (Aw2 eq_refl C1).
  - cbn [t_step] in E. injection E as <- <-. cbn [map].
    constructor; cbn [sm_state sm_up sm_air sm_down ts_sky ts_up ts_down ts_point rs_air rs_now].
    + rewrite map_app. exact K1.
    + apply stamp_len. lia.
    + apply stamp_len. lia.
    + apply stamp_len. lia.
    + apply (still_young S); auto.
    + intros Fy. specialize (F (Fx Fy)). rewrite !stamp_keep by assumption. rewrite map_app, sat_log_app. cbn [map snd]. rewrite app_nil_r.
      destruct F as [F1 F2 F3 F4]. constructor; [exact F1|exact F2|exact F3|].
      intros g' a Hg Aw. rewrite since_more in Aw. cbn [snd] in Aw. rewrite (Nat.eqb_sym g' g). destruct (Nat.eqb_spec g g') as [->|Ng]; [discriminate|]. apply F4; assumption.
Qed.

Lemma timed_run : forall ops S tr r, timed S tr -> Forall (in_time t0 life) ops -> Forall (turned_to sats) ops -> mrun S ops = Some r ->
  exists S' tr', r = Ok (S', tr') /\ trun (sm_state S) ops = Some (Ok (sm_state S', map snd tr')) /\ timed S' (tr ++ tr').
Proof.
  induction ops as [|o ops IH]; intros S tr r V Ti Tu R; cbn [m_run t_run] in *.
  - injection R as <-. do 2 eexists. split; [reflexivity|]. split; [reflexivity|]. rewrite app_nil_r. exact V.
  - inversion Ti; subst. inversion Tu; subst. destruct (mstep S o) as [r1|] eqn:E; [|discriminate].
    destruct (timed_step S tr o r1 V ltac:(assumption) ltac:(assumption) E) as (S1 & ev & -> & E1 & V1). rewrite E1.
    destruct (mrun S1 ops) as [r2|] eqn:E2; [|discriminate].
    destruct (IH S1 _ r2 V1 ltac:(assumption) ltac:(assumption) E2) as (S2 & tr2 & -> & E3 & V2). rewrite E3. injection R as <-.
    do 2 eexists. split; [reflexivity|]. split; [rewrite map_app; reflexivity|]. rewrite app_assoc. exact V2.
Qed.

Lemma timed_start : forall s, kept s [] -> all_quiet s -> timed (sm_start s) [].
Proof.
  intros s K (Q1 & Q2 & Q3). constructor; cbn [sm_start sm_state sm_up sm_air sm_down map]; rewrite ?Q1, ?Q2, ?Q3; try reflexivity; [exact K|intros x []|].
  intros _. constructor; discriminate.
Qed.
End Deadlines.
