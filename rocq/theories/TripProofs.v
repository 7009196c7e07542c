(** Invariants of the way there and back. *)
From Coq Require Import ZArith List Bool Lia Arith.
From Verif Require Import Base SatAddrModel ConstellationModel GeoTagModel PendingModel PendingProofs ReturnModel ReturnSpec ReturnProofs TripModel TripSpec.
Import ListNotations.
Open Scope Z_scope.

Definition sat_log (tr : list tevent) : rlog := flat_map (fun v => match v with LSat x => [x] | _ => [] end) tr.
Lemma sat_log_app : forall a b, sat_log (a ++ b) = sat_log a ++ sat_log b.
Proof. intros. apply flat_map_app. Qed.

Lemma take_in : forall (A : Type) i (l : list A) x r, take_out i l = Some (x, r) ->
  In x l /\ (forall y, In y r -> In y l) /\ forall y, In y l -> y = x \/ In y r.
Proof.
  intros A i l x r T. apply take_spec in T. destruct T as (a & b & -> & ->). split; [apply in_or_app; right; left; reflexivity|].
  split; intros y H; apply in_app_or in H.
  - apply in_or_app. destruct H; [auto|right; right; auto].
  - destruct H as [H|[H|H]]; [right; apply in_or_app; auto|left; auto|right; apply in_or_app; auto].
Qed.

Lemma asking_more : forall tr v g, asking (tr ++ [v]) g =
  match v with LAsk x => (x =? g)%nat || asking tr g | LData x | LTurn x _ => negb (x =? g)%nat && asking tr g | LSat _ => asking tr g end.
Proof. intros. unfold asking. rewrite fold_left_app. reflexivity. Qed.
Lemma awaits_more : forall tr v g, awaits (tr ++ [v]) g = match v with LAsk x => (x =? g)%nat || awaits tr g | LData x => negb (x =? g)%nat && awaits tr g | _ => awaits tr g end.
Proof. intros. unfold awaits. rewrite fold_left_app. reflexivity. Qed.

Lemma patient_prefix : forall a b g, patient (a ++ b) g -> patient a g.
Proof. intros a b g P x n y ->. apply (P x n (y ++ b)). rewrite <- app_assoc. reflexivity. Qed.
Lemma patient_asking : forall tr g, patient tr g -> awaits tr g = asking tr g.
Proof.
  intros tr g. induction tr as [|v tr IH] using rev_ind; intros P; [reflexivity|]. rewrite awaits_more, asking_more. pose proof (IH (patient_prefix _ _ _ P)) as E. rewrite <- E.
  destruct v as [x|x|x|x n]; try reflexivity. destruct (Nat.eqb_spec x g) as [->|N]; [|reflexivity]. apply (P tr n []). reflexivity.
Qed.

Lemma put_same : forall n e p, put_pit n e p n = e.
Proof. intros. unfold put_pit. rewrite Nat.eqb_refl. reflexivity. Qed.
Lemma put_else : forall n e p m, m <> n -> put_pit n e p m = p m.
Proof. intros n e p m H. unfold put_pit. apply Nat.eqb_neq in H. rewrite H. reflexivity. Qed.
Lemma sum_both : forall a b, sum (a ++ b) = (sum a + sum b)%nat.
Proof. induction a as [|x a IH]; intros b; [reflexivity|]. cbn [app sum fold_right]. fold (sum (a ++ b)). fold (sum a). rewrite IH. lia. Qed.

Section Keep.
Variable nw : network.
Variable h : host.
Variable nh : nat -> list face.
Variable scope : face -> bool.
Variable tag : Z * Z * Z.
Variable sats : list nat.
Variable target : nat.
Variable dist : nat -> Z.
Variable join : nat -> nat -> nat -> Prop.
Hypothesis scope_free : forall g, scope g = false.
Hypothesis dist_pos : forall n, In n sats -> 0 <= dist n.
Hypothesis join_sym : forall k n m, join k n m -> join k m n.
Hypothesis join_remote : forall k n m, In n sats -> join k n m -> remote_node nw n (IslFace k) = Ok m.
Hypothesis react : forall n f rq, In n sats -> from_far sats dist join n f -> rq_tag rq = Some tag -> rq_ingress rq = f -> rq_sup rq <> SUPPRESS ->
  (forall g, rq_scope rq g = false) ->
  (n = target /\ after_receive_interest nw h n (nh n) rq = Ok [SendInterest GroundFace]) \/
  (n <> target /\ exists k m, after_receive_interest nw h n (nh n) rq = Ok [SendInterest (IslFace k)] /\ join k n m /\ In m sats /\ dist m < dist n).
Variables t0 life : Z.
Variable stations : list nat.
Variable producer : nat.
Hypothesis here : In producer stations.
Variable point0 : nat -> nat.

Notation inv := (rinv sats target dist join t0 life).
Notation rstep := (r_step nw h nh scope tag).
Notation tstep := (t_step nw h nh scope tag stations producer).
Notation trun := (t_run nw h nh scope tag stations producer).

Lemma later : forall s tr t, inv s tr -> t0 <= t < t0 + life -> inv (mkRS t (rs_pit s) (rs_air s)) tr.
Proof. intros s tr t [I1 I2 I3 I4 I5] Ht. constructor; assumption. Qed.

(** What a satellite did. *)
Lemma node_did : forall s air n o s' x, at_node nw h nh scope s air n o = Ok (s', x) ->
  exists e ev new, pit_step nw h n (nh n) scope (rs_pit s n) o = Ok (e, ev) /\ x = (n, o, ev) /\ rs_pit s' = put_pit n e (rs_pit s) /\
    emit_all nw n (match o with Ask _ _ _ l => l | _ => 0 end) ev = Ok new /\ rs_air s' = air ++ new /\ rs_now s' = pop_time o.
Proof.
  intros s air n o s' x H. unfold at_node in H. destruct (pit_step nw h n (nh n) scope (rs_pit s n) o) as [[e ev]| | |]; try discriminate. cbn [rbind] in H.
  destruct (emit_all nw n (match o with Ask _ _ _ l => l | _ => 0 end) ev) as [new| | |] eqn:Em; try discriminate. cbn [rbind] in H. injection H as <- <-.
  exists e, ev, new. auto 7.
Qed.

Definition did (s : rstate) (o : rop) (n : nat) (p : pop) (air : list flight) : Prop :=
  match o with
  | RAsk t m l => n = m /\ p = Ask t GroundFace (Some tag) l /\ air = rs_air s
  | RData t m => n = m /\ p = Answer t GroundFace /\ air = rs_air s
  | RMove t i => exists f, take_out i (rs_air s) = Some (f, air) /\ n = fl_to f /\
      p = match fl_what f with
          | PAsk l => Ask t (IslFace (fl_chan f)) (Some tag) l
          | PData => Answer t (IslFace (fl_chan f))
          | PNack r => Refuse t (IslFace (fl_chan f)) r
          end
  end.
Lemma step_did : forall s o r, rstep s o = Some r -> exists n p air, did s o n p air /\ r = at_node nw h nh scope s air n p /\ rs_now s <= op_time o /\ pop_time p = op_time o.
Proof.
  intros s [t n l|t n|t i] r R; cbn [r_step op_time] in *.
  - destruct (Z.leb_spec (rs_now s) t); [|discriminate]. injection R as <-. do 3 eexists. split; [split; [reflexivity|split; reflexivity]|]. auto.
  - destruct (Z.leb_spec (rs_now s) t); [|discriminate]. injection R as <-. do 3 eexists. split; [split; [reflexivity|split; reflexivity]|]. auto.
  - destruct (take_out i (rs_air s)) as [[f air]|] eqn:T; [|discriminate]. destruct (Z.leb_spec (rs_now s) t); [|discriminate]. injection R as <-.
    do 3 eexists. split; [exists f; split; [exact T|split; reflexivity]|]. split; [reflexivity|]. split; [assumption|]. destruct (fl_what f); reflexivity.
Qed.

(** An Interest comes on a face it may come on. *)
Lemma did_from : forall s tr o n p air, inv s tr -> timely t0 life o -> at_sat sats o -> did s o n p air ->
  In n sats /\ ((exists t f l, p = Ask t f (Some tag) l /\ from_far sats dist join n f /\ t = op_time o /\ life <= l) \/ exists t f, p = Answer t f /\ t = op_time o).
Proof.
  intros s tr o n p air I (Tm & Lf) Sa D. destruct o as [t m l|t m|t i]; cbn [did op_time at_sat] in *.
  - destruct D as (-> & -> & _). split; [exact Sa|]. left. do 3 eexists. split; [reflexivity|]. split; [left; reflexivity|]. auto.
  - destruct D as (-> & -> & _). split; [exact Sa|]. right. eauto.
  - destruct D as (f & T & -> & ->). apply take_in in T. destruct T as (T & _). destruct (i_air _ _ _ _ _ _ _ _ I f T) as (Hn & m & J & Hm & W). split; [exact Hn|].
    destruct (fl_what f) as [l| |]; [| |destruct W].
    + left. do 3 eexists. split; [reflexivity|]. split; [|split; [reflexivity|apply W]]. right. exists (fl_chan f), m. split; [reflexivity|]. split; [exact J|]. split; [exact Hm|apply W].
    + right. eauto.
Qed.

(** The target's satellite holds an entry only if it has sent the Interest down since the last Data from there. *)
Lemma due_step : forall s tr o s' x, inv s tr -> timely t0 life o -> at_sat sats o -> rstep s o = Some (Ok (s', x)) -> rs_pit s' target <> None ->
  (rs_pit s target <> None /\ forall t, o <> RData t target) \/ (fst (fst x) = target /\ exists tg, In (ASent GroundFace tg) (snd x)).
Proof.
  intros s tr o s' x I Ti Sa R Nn. destruct (step_did s o _ R) as (n & p & air & D & E & Hn & Pt). symmetry in E.
  destruct (node_did _ _ _ _ _ _ E) as (e & ev & new & Ps & -> & Pp & _). rewrite Pp in Nn. unfold put_pit in Nn.
  destruct (Nat.eqb_spec target n) as [<-|Ne].
  - destruct (did_from _ _ _ _ _ _ I Ti Sa D) as (Hs & [(t & f & l & -> & Ff & Et & Hl)|(t & f & -> & _)]).
    + destruct (ask_ok nw h nh scope tag sats target dist join scope_free dist_pos join_sym join_remote react t0 life target f t l (rs_pit s target) Hs Ff ltac:(subst t; apply Ti) Hl
        (fun e K => proj2 (i_sats _ _ _ _ _ _ _ _ I target e K))) as (e' & ev' & Q & _ & _ & _ & C).
      rewrite Ps in Q. injection Q as -> ->. destruct C as [(_ & C)|[(_ & ->)|(C & _)]]; [|right|congruence].
      * left. split; [exact C|]. intros t' ->. destruct D as (_ & D & _). discriminate.
      * split; [reflexivity|]. eexists. left. reflexivity.
    + exfalso. cbn [pit_step] in Ps. destruct (at_time t (rs_pit s target)); injection Ps as <- <-; congruence.
  - left. split; [exact Nn|]. intros t ->. destruct D as (D & _). congruence.
Qed.

Definition fixed (tr : list tevent) : Prop := point0 producer = target /\ forall n, ~ In (LTurn producer n) tr.

Record tinv (s : tstate) (tr : list tevent) : Prop := mkTInv {
  v_sky : inv (ts_sky s) (sat_log tr);
  v_up : forall n u, In (n, u) (ts_up s) -> In n sats /\ match u with UAsk l => life <= l | UData => True end;
  v_point : forall g, In (ts_point s g) sats;
  v_prod : fixed tr -> ts_point s producer = target;
  v_due : fixed tr -> rs_pit (ts_sky s) target <> None -> In (target, producer, DAsk) (ts_down s) \/ In (target, UData) (ts_up s);
  v_wait : forall g, In g stations -> asking tr g = true ->
    (exists l, In (ts_point s g, UAsk l) (ts_up s)) \/ waits_below (sat_log tr) (ts_point s g) = true \/ In (ts_point s g, g, DData) (ts_down s) }.

Lemma fixed_prefix : forall a b, fixed (a ++ b) -> fixed a.
Proof. intros a b (F & N). split; [exact F|]. intros n K. apply (N n), in_or_app. auto. Qed.

Lemma in_downs : forall n ev x, In x (downs stations n ev) <->
  exists g, In g stations /\ ((exists tg, In (ASent GroundFace tg) ev) /\ x = (n, g, DAsk) \/ In (AData GroundFace) ev /\ x = (n, g, DData)).
Proof.
  intros n ev x. unfold downs. rewrite in_flat_map. split.
  - intros (v & Hv & Hx). destruct v as [f tg|f r|f|]; try destruct f; try contradiction; apply in_map_iff in Hx; destruct Hx as (g & <- & Hg); exists g; eauto.
  - intros (g & Hg & [((tg & H) & ->)|(H & ->)]); eexists; (split; [exact H|]); cbn; apply in_map_iff; eauto.
Qed.

Lemma serves_data : forall n x, serves n x = true -> fst (fst x) = n /\ In (AData GroundFace) (snd x).
Proof.
  intros n x H. unfold serves in H. apply andb_prop in H. destruct H as [H1 H2]. apply Nat.eqb_eq in H1. split; [exact H1|].
  apply existsb_exists in H2. destruct H2 as (v & Hv & H2). destruct v as [?|? ?|[]|]; try discriminate. exact Hv.
Qed.

(** A satellite receives something: [up] is what is left on the way up. *)
Lemma keep_through : forall s tr o up r, tinv s tr -> timely t0 life o -> at_sat sats o ->
  (forall x, In x up -> In x (ts_up s)) ->
  (forall x, In x (ts_up s) -> In x up \/ (exists t n l, x = (n, UAsk l) /\ o = RAsk t n l) \/ exists t n, x = (n, UData) /\ o = RData t n) ->
  through stations up s (rstep (ts_sky s) o) = Some r ->
  exists s' x, r = Ok (s', [LSat x]) /\ tinv s' (tr ++ [LSat x]) /\ quiet x /\ ts_up s' = up /\ (forall m, serves m x = true -> waits_below (sat_log tr) m = true).
Proof.
  intros s tr o up r V Ti Sa A1 A2 R. pose proof V as [V1 V2 V3 V4 V5 V6]. unfold through in R.
  destruct (rstep (ts_sky s) o) as [q|] eqn:E; [|discriminate].
  destruct (keep_step nw h nh scope tag sats target dist join scope_free dist_pos join_sym join_remote react t0 life _ _ o q V1 Ti Sa E) as (sky & x & -> & I & Q & Sv).
  injection R as <-. exists (mkT sky up (ts_down s ++ downs stations (fst (fst x)) (snd x)) (ts_point s)), x. split; [reflexivity|]. split; [|auto].
  assert (Lg : sat_log (tr ++ [LSat x]) = sat_log tr ++ [x]) by (rewrite sat_log_app; reflexivity).
  assert (Fx : fixed (tr ++ [LSat x]) -> fixed tr) by apply fixed_prefix.
  constructor; cbn [ts_sky ts_up ts_down ts_point].
  - rewrite Lg. exact I.
  - intros n u K. apply V2, A1, K.
  - exact V3.
  - intros F. apply V4, Fx, F.
  - intros F Nn. destruct (due_step _ _ _ _ _ V1 Ti Sa E Nn) as [(On & Nd)|(Ex & tg & Hs)].
    + destruct (V5 (Fx F) On) as [K|K]; [left; apply in_or_app; auto|]. destruct (A2 _ K) as [K1|[(t & n & l & K1 & _)|(t & n & K1 & ->)]]; [auto|discriminate|].
      injection K1 as <-. destruct (Nd t eq_refl).
    + left. apply in_or_app. right. rewrite Ex. apply in_downs. exists producer. split; [exact here|]. left. split; [eauto|reflexivity].
  - intros g Hg Aw. rewrite Lg. rewrite asking_more in Aw. rewrite waits_more.
    destruct (serves (ts_point s g) x) eqn:Se.
    + apply serves_data in Se. destruct Se as (Se1 & Se2). right. right. apply in_or_app. right. rewrite Se1. apply in_downs. exists g. auto.
    + destruct (V6 g Hg Aw) as [(l & K)|[K|K]].
      * destruct (A2 _ K) as [K1|[(t & n & l' & K1 & ->)|(t & n & K1 & _)]]; [left; eauto| |discriminate].
        injection K1 as <- <-. right. left. destruct (step_did _ _ _ E) as (n' & p & air & (-> & -> & ->) & Eq & _). symmetry in Eq.
        destruct (node_did _ _ _ _ _ _ Eq) as (e & ev & new & _ & -> & _). unfold asks. cbn [fst snd]. rewrite Nat.eqb_refl. reflexivity.
      * right. left. rewrite K. apply orb_true_r.
      * right. right. apply in_or_app. auto.
Qed.

Lemma keep_tstep : forall s tr o r, tinv s tr -> in_time t0 life o -> turned_to sats o -> tstep s o = Some r ->
  exists s' ev, r = Ok (s', ev) /\ tinv s' (tr ++ ev) /\ Forall quiet (sat_log ev).
Proof.
  intros s tr o r V Ti Tu R. pose proof V as [V1 V2 V3 V4 V5 V6]. destruct o as [t g l|t i|t i|t i|g n]; cbn [t_step in_time turned_to] in *.
  - destruct (Z.leb_spec (rs_now (ts_sky s)) t) as [Hn|]; [|discriminate]. injection R as <-. do 2 eexists. split; [reflexivity|]. split; [|constructor].
    assert (Lg : sat_log (tr ++ [LAsk g]) = sat_log tr) by (rewrite sat_log_app; apply app_nil_r).
    constructor; cbn [ts_sky ts_up ts_down ts_point]; rewrite ?Lg.
    + apply later; [exact V1|apply Ti].
    + intros n u K. apply in_app_or in K. destruct K as [K|[K|[]]]; [exact (V2 n u K)|]. injection K as <- <-. split; [apply V3|apply Ti].
    + exact V3.
    + intros F. apply V4. eapply fixed_prefix, F.
    + intros F Nn. cbn [rs_pit] in Nn. destruct (V5 (fixed_prefix _ _ F) Nn); [auto|right; apply in_or_app; auto].
    + intros g' Hg Aw. rewrite asking_more in Aw. destruct (Nat.eqb_spec g g') as [<-|Ng].
      * left. exists l. apply in_or_app. right. left. reflexivity.
      * destruct (V6 g' Hg Aw) as [(l' & K)|[K|K]]; [left; exists l'; apply in_or_app; auto|auto|auto].
  - destruct (take_out i (ts_up s)) as [[[n u] up]|] eqn:T; [|discriminate]. apply take_in in T. destruct T as (T1 & T2 & T3). destruct (V2 _ _ T1) as (Hn & Hu).
    assert (K : exists o, through stations up s (rstep (ts_sky s) o) = Some r /\ timely t0 life o /\ at_sat sats o /\
      (forall x, In x (ts_up s) -> In x up \/ (exists t n l, x = (n, UAsk l) /\ o = RAsk t n l) \/ exists t n, x = (n, UData) /\ o = RData t n)).
    { destruct u as [l|].
      - exists (RAsk t n l). split; [exact R|]. split; [split; [exact Ti|exact Hu]|]. split; [exact Hn|]. intros x K. destruct (T3 x K) as [->|K1]; [right; left; eauto|auto].
      - exists (RData t n). split; [exact R|]. split; [split; [exact Ti|exact Logic.I]|]. split; [exact Hn|]. intros x K. destruct (T3 x K) as [->|K1]; [right; right; eauto|auto]. }
    destruct K as (o & R' & To & So & A2). destruct (keep_through s tr o up r V To So T2 A2 R') as (s' & x & -> & I & Q & _).
    do 2 eexists. split; [reflexivity|]. split; [exact I|]. cbn. auto.
  - destruct (keep_through s tr (RMove t i) (ts_up s) r V (conj Ti Logic.I) Logic.I (fun x K => K) (fun x K => or_introl K) R) as (s' & x & -> & I & Q & _).
    do 2 eexists. split; [reflexivity|]. split; [exact I|]. cbn. auto.
  - destruct (take_out i (ts_down s)) as [[[[n g] w] down]|] eqn:T; [|discriminate]. apply take_in in T. destruct T as (T1 & T2 & T3).
    destruct (Z.leb_spec (rs_now (ts_sky s)) t) as [Hn|]; [|discriminate]. injection R as <-. destruct w.
    + do 2 eexists. split; [reflexivity|]. split; [|constructor]. rewrite app_nil_r. constructor; cbn [ts_sky ts_up ts_down ts_point].
      * apply later; [exact V1|apply Ti].
      * intros n' u K. destruct (_ && _); [|exact (V2 _ _ K)]. apply in_app_or in K. destruct K as [K|[K|[]]]; [exact (V2 _ _ K)|]. injection K as <- <-. split; [apply V3|exact Logic.I].
      * exact V3.
      * exact V4.
      * intros F Nn. cbn [rs_pit] in Nn. destruct (V5 F Nn) as [K|K].
        -- destruct (T3 _ K) as [K1|K1]; [|auto]. injection K1 as <- <-. rewrite (V4 F), !Nat.eqb_refl. right. apply in_or_app. right. left. reflexivity.
        -- right. destruct (_ && _); [apply in_or_app; auto|exact K].
      * intros g' Hg Aw. destruct (V6 g' Hg Aw) as [(l' & K)|[K|K]].
        -- left. exists l'. destruct (_ && _); [apply in_or_app; auto|exact K].
        -- auto.
        -- right. right. destruct (T3 _ K) as [K1|K1]; [discriminate|exact K1].
    + do 2 eexists. split; [reflexivity|]. assert (Lg : sat_log (tr ++ (if (ts_point s g =? n)%nat then [LData g] else [])) = sat_log tr).
      { rewrite sat_log_app. destruct (_ =? _)%nat; apply app_nil_r. }
      split; [|destruct (_ =? _)%nat; constructor]. constructor; cbn [ts_sky ts_up ts_down ts_point]; rewrite ?Lg.
      * apply later; [exact V1|apply Ti].
      * exact V2.
      * exact V3.
      * intros F. apply V4. eapply fixed_prefix, F.
      * intros F Nn. cbn [rs_pit] in Nn. destruct (V5 (fixed_prefix _ _ F) Nn) as [K|K]; [|auto]. left. destruct (T3 _ K) as [K1|K1]; [discriminate|exact K1].
      * intros g' Hg Aw.
        assert (Aw' : asking tr g' = true /\ (g' = g -> ts_point s g <> n)).
        { destruct (Nat.eqb_spec (ts_point s g) n) as [En|En].
          - rewrite asking_more in Aw. apply andb_prop in Aw. destruct Aw as [Aw1 Aw2]. split; [exact Aw2|]. intros ->. rewrite Nat.eqb_refl in Aw1. discriminate.
          - rewrite app_nil_r in Aw. auto. }
        destruct Aw' as (Aw1 & Aw2). destruct (V6 g' Hg Aw1) as [K|[K|K]]; [auto|auto|].
        right. right. destruct (T3 _ K) as [K1|K1]; [|exact K1]. injection K1 as K1 K2. subst g'. destruct (Aw2 eq_refl K1).
  - injection R as <-. do 2 eexists. split; [reflexivity|]. split; [|constructor].
    assert (Lg : sat_log (tr ++ [LTurn g n]) = sat_log tr) by (rewrite sat_log_app; apply app_nil_r).
    constructor; cbn [ts_sky ts_up ts_down ts_point]; rewrite ?Lg.
    + exact V1.
    + exact V2.
    + intros g'. destruct (_ =? _)%nat; [exact Tu|apply V3].
    + intros F. destruct (Nat.eqb_spec producer g) as [<-|Ng]; [|apply V4; eapply fixed_prefix, F]. exfalso. destruct F as (_ & F). apply (F n), in_or_app. right. left. reflexivity.
    + intros F. apply V5. eapply fixed_prefix, F.
    + intros g' Hg Aw. rewrite asking_more in Aw. rewrite (Nat.eqb_sym g' g). destruct (Nat.eqb_spec g g') as [->|Ng]; [discriminate|]. apply V6; [exact Hg|exact Aw].
Qed.

Lemma keep_trun : forall ops s tr r, tinv s tr -> Forall (in_time t0 life) ops -> Forall (turned_to sats) ops -> trun s ops = Some r ->
  exists s' tr', r = Ok (s', tr') /\ tinv s' (tr ++ tr') /\ Forall quiet (sat_log tr').
Proof.
  induction ops as [|o ops IH]; intros s tr r V Ti Tu R; cbn [t_run] in R.
  - injection R as <-. exists s, []. rewrite app_nil_r. split; [reflexivity|]. split; [exact V|constructor].
  - inversion Ti; subst. inversion Tu; subst. destruct (tstep s o) as [r1|] eqn:E; [|discriminate].
    destruct (keep_tstep s tr o r1 V ltac:(assumption) ltac:(assumption) E) as (s1 & ev & -> & V1 & Q1).
    destruct (trun s1 ops) as [r2|] eqn:E2; [|discriminate].
    destruct (IH s1 (tr ++ ev) r2 V1 ltac:(assumption) ltac:(assumption) E2) as (s2 & tr2 & -> & V2 & Q2). injection R as <-.
    exists s2, (ev ++ tr2). split; [reflexivity|]. rewrite app_assoc. split; [exact V2|]. rewrite sat_log_app. apply Forall_app. auto.
Qed.

Lemma rest_served : forall s tr g, tinv s tr -> fixed tr -> all_quiet s -> In g stations -> asking tr g = false.
Proof.
  intros s tr g V F (Q1 & Q2 & Q3) Hg. destruct (asking tr g) eqn:Aw; [|reflexivity]. exfalso.
  assert (Pt : rs_pit (ts_sky s) target = None).
  { destruct (rs_pit (ts_sky s) target) eqn:E; [|reflexivity]. exfalso. destruct (v_due s tr V F) as [K|K]; [congruence|rewrite Q3 in K|rewrite Q2 in K]; exact K. }
  pose proof (v_sky s tr V) as I.
  destruct (v_wait s tr V g Hg Aw) as [(l & K)|[K|K]]; [rewrite Q2 in K; exact K| |rewrite Q3 in K; exact K].
  apply (i_wait _ _ _ _ _ _ _ _ I) in K. destruct K as (e & K & _).
  rewrite (rest_none nw h nh tag sats target dist join dist_pos join_sym join_remote react t0 life (ts_sky s) _ I Q1 Pt) in K. discriminate.
Qed.
(** ** Coming to rest *)
Hypothesis sats_nodup : NoDup sats.

Definition cost : nat := (3 * List.length stations + 5)%nat.
Definition up_load (x : nat * rising) : nat := match snd x with UAsk _ => (cost * S (Z.to_nat (dist (fst x))))%nat | UData => 1%nat end.
Definition down_load (x : nat * nat * falling) : nat := match snd x with DAsk => 2%nat | DData => 1%nat end.
Definition air_load (f : flight) : nat := match fl_what f with PAsk _ => (cost * S (Z.to_nat (dist (fl_to f))))%nat | _ => 1%nat end.
Definition held (e : option entry) : nat := match e with Some e => (List.length (e_in e))%nat | None => 0%nat end.
Definition holds (p : nat -> option entry) : nat := sum (map (fun n => (held (p n) * (List.length stations + 2))%nat) sats).
Definition trip_load (s : tstate) : nat :=
  (sum (map up_load (ts_up s)) + sum (map down_load (ts_down s)) + sum (map air_load (rs_air (ts_sky s))) + holds (rs_pit (ts_sky s)))%nat.

Lemma holds_put : forall n e p, In n sats -> (holds (put_pit n e p) + held (p n) * (List.length stations + 2) = holds p + held e * (List.length stations + 2))%nat.
Proof.
  intros n e p. unfold holds. generalize (List.length stations + 2)%nat. intros c Hn. revert sats_nodup Hn. clear. revert n e p. induction sats as [|m l IH]; intros n e p ND Hn; [destruct Hn|].
  inversion ND; subst. cbn [map sum fold_right]. fold (sum (map (fun n0 => (held (put_pit n e p n0) * c)%nat) l)). fold (sum (map (fun n0 => (held (p n0) * c)%nat) l)).
  destruct (Nat.eq_dec m n) as [->|N].
  - assert (Eq : map (fun n0 => (held (put_pit n e p n0) * c)%nat) l = map (fun n0 => (held (p n0) * c)%nat) l).
    { apply map_ext_in. intros x Hx. rewrite put_else; [reflexivity|congruence]. }
    rewrite Eq, put_same. lia.
  - rewrite put_else by congruence. destruct Hn as [->|Hn]; [congruence|]. specialize (IH n e p H2 Hn). lia.
Qed.

Lemma sum_le : forall (A : Type) (f : A -> nat) c l, (forall x, In x l -> (f x <= c)%nat) -> (sum (map f l) <= c * List.length l)%nat.
Proof. induction l as [|x l IH]; intros H; [cbn; lia|]. cbn [map sum fold_right List.length]. fold (sum (map f l)). pose proof (H x (or_introl eq_refl)). pose proof (IH (fun y K => H y (or_intror K))). lia. Qed.

Lemma downs_len : forall n ev, (List.length (downs stations n ev) <= List.length stations * List.length ev)%nat.
Proof.
  intros n ev. induction ev as [|v ev IH]; [cbn; lia|]. unfold downs in *. cbn [flat_map List.length]. rewrite app_length.
  destruct v as [f tg|f r|f|]; try destruct f; cbn [List.length]; rewrite ?map_length; lia.
Qed.

(** A satellite deals with something that weighs [w]. *)
Definition weighs (p : pop) (n : nat) : nat := match p with Ask _ _ _ _ => (cost * S (Z.to_nat (dist n)))%nat | _ => 1%nat end.
Lemma node_less : forall s tr o n p air s' x, inv s tr -> timely t0 life o -> at_sat sats o -> did s o n p air -> at_node nw h nh scope s air n p = Ok (s', x) ->
  fst (fst x) = n /\
  (sum (map air_load (rs_air s')) + holds (rs_pit s') + sum (map down_load (downs stations n (snd x))) < weighs p n + sum (map air_load air) + holds (rs_pit s))%nat.
Proof.
  intros s tr o n p air s' x I Ti Sa D E. destruct (did_from _ _ _ _ _ _ I Ti Sa D) as (Hs & C).
  destruct (node_did _ _ _ _ _ _ E) as (e & ev & new & Ps & -> & Pp & Em & Ea & _). split; [reflexivity|]. cbn [snd]. rewrite Pp, Ea, map_app, sum_both.
  pose proof (holds_put n e (rs_pit s) Hs) as Hh. unfold weighs. destruct C as [(t & f & l & -> & Ff & Et & Hl)|(t & f & -> & Et)].
  - destruct (ask_ok nw h nh scope tag sats target dist join scope_free dist_pos join_sym join_remote react t0 life n f t l (rs_pit s n) Hs Ff ltac:(subst t; apply Ti) Hl
      (fun e K => proj2 (i_sats _ _ _ _ _ _ _ _ I n e K))) as (e' & ev' & Q & _ & _ & Le & C).
    rewrite Ps in Q. injection Q as -> ->. fold (held (rs_pit s n)) in Le. cbn [held] in Hh. set (N := List.length stations) in *.
    assert (Hb : (List.length (e_in e') * (N + 2) <= held (rs_pit s n) * (N + 2) + (N + 2))%nat) by (transitivity (S (held (rs_pit s n)) * (N + 2))%nat; [apply Nat.mul_le_mono_r; exact Le|lia]).
    assert (Hc : (cost * S (Z.to_nat (dist n)) = cost * Z.to_nat (dist n) + (3 * N + 5))%nat) by (unfold cost; fold N; lia). rewrite Hc.
    destruct C as [(-> & _)|[(_ & ->)|(_ & k & m & -> & J & Hm & Dm)]].
    + cbn in Em. injection Em as <-. cbn. lia.
    + cbn in Em. injection Em as <-. cbn [downs flat_map]. rewrite app_nil_r.
      assert (Hd : (sum (map down_load (map (fun g => (n, g, DAsk)) stations)) <= 2 * N)%nat).
      { rewrite map_map. apply (sum_le _ (fun x => down_load (n, x, DAsk)) 2%nat stations). intros; cbn; lia. }
      cbn [map sum fold_right]. lia.
    + cbn [emit_all emit rbind] in Em. rewrite (join_remote k n m Hs J) in Em. cbn in Em. injection Em as <-. cbn [downs flat_map app map sum fold_right]. unfold air_load at 2. cbn [fl_what fl_to].
      pose proof (dist_pos m Hm). assert (Lt : (S (Z.to_nat (dist m)) <= Z.to_nat (dist n))%nat) by lia.
      assert (cost * S (Z.to_nat (dist m)) <= cost * Z.to_nat (dist n))%nat by (apply Nat.mul_le_mono_l; exact Lt). lia.
  - destruct (answer_ok nw h nh scope tag sats target dist join scope_free dist_pos join_sym join_remote react t0 life n f t (rs_pit s n) ltac:(subst t; apply Ti)
      (fun e K => proj2 (i_sats _ _ _ _ _ _ _ _ I n e K))) as (ev' & Q & Iff & Le).
    rewrite Ps in Q. injection Q as -> ->. fold (held (rs_pit s n)) in Le. cbn [held] in Hh.
    destruct (emit_data nw h nh tag sats target dist join dist_pos join_sym join_remote react n 0 ev' Hs) as (new' & Em' & Ln & Fn).
    { intros v Hv. apply Iff in Hv. destruct Hv as (e & g & Pe & -> & Rg & _). exists g. split; [reflexivity|]. apply some_in in Rg. destruct Rg as (z & Rg).
      destruct (i_sats _ _ _ _ _ _ _ _ I n e Pe) as (_ & _ & Wh). apply (Wh g z Rg). }
    rewrite Em in Em'. injection Em' as <-.
    assert (S1 : (sum (map air_load new) <= 1 * List.length new)%nat).
    { apply sum_le. intros x Hx. apply Fn in Hx. destruct Hx as (k & m & _ & _ & ->). cbn. lia. }
    assert (S2 : (sum (map down_load (downs stations n ev')) <= 1 * List.length (downs stations n ev'))%nat).
    { apply sum_le. intros x Hx. apply in_downs in Hx. destruct Hx as (g & _ & [((tg & Hx) & ->)|(_ & ->)]); [|cbn; lia]. apply Iff in Hx. destruct Hx as (? & ? & _ & Hx & _). discriminate. }
    pose proof (downs_len n ev') as S3. set (N := List.length stations) in *.
    assert (N * List.length ev' <= N * held (rs_pit s n))%nat by (apply Nat.mul_le_mono_l; exact Le). lia.
Qed.

Definition one_more (now : Z) (o : top) : Prop := o = TUp now 0 \/ o = TMove now 0 \/ o = TDown now 0.

Lemma trip_less : forall s tr, tinv s tr -> ~ all_quiet s -> exists o s' ev, one_more (rs_now (ts_sky s)) o /\
  tstep s o = Some (Ok (s', ev)) /\ tinv s' (tr ++ ev) /\ rs_now (ts_sky s') = rs_now (ts_sky s) /\ ts_point s' = ts_point s /\ (trip_load s' < trip_load s)%nat.
Proof.
  intros s tr V Nq. pose proof V as [V1 V2 V3 V4 V5 V6]. pose proof (i_now _ _ _ _ _ _ _ _ V1) as Hnow. set (now := rs_now (ts_sky s)) in *.
  (* a satellite step *)
  assert (Sat : forall o up, timely t0 life o -> at_sat sats o -> op_time o = now -> (exists r, rstep (ts_sky s) o = Some r) ->
    (forall x, In x up -> In x (ts_up s)) ->
    (forall x, In x (ts_up s) -> In x up \/ (exists t n l, x = (n, UAsk l) /\ o = RAsk t n l) \/ exists t n, x = (n, UData) /\ o = RData t n) ->
    (forall n p air, did (ts_sky s) o n p air -> (weighs p n + sum (map air_load air) + sum (map up_load up) <= sum (map up_load (ts_up s)) + sum (map air_load (rs_air (ts_sky s))))%nat) ->
    exists s' ev, through stations up s (rstep (ts_sky s) o) = Some (Ok (s', ev)) /\ tinv s' (tr ++ ev) /\ rs_now (ts_sky s') = now /\ ts_point s' = ts_point s /\ (trip_load s' < trip_load s)%nat).
  { intros o up To So Et (r & R) A1 A2 W. assert (exists q, through stations up s (rstep (ts_sky s) o) = Some q) as (q & Rq).
    { rewrite R. unfold through. destruct r as [[? ?]| | |]; eauto. }
    destruct (keep_through s tr o up q V To So A1 A2 Rq) as (s' & x & -> & V' & _ & Eu & _). exists s', [LSat x]. split; [exact Rq|]. split; [exact V'|].
    destruct (step_did _ _ _ R) as (n & p & air & D & Eq & _ & Pt). unfold through in Rq. rewrite R in Rq. destruct r as [[sky y]| | |]; try discriminate. injection Rq as <- ->. symmetry in Eq.
    destruct (node_less _ _ _ _ _ _ _ _ V1 To So D Eq) as (En & L). destruct (node_did _ _ _ _ _ _ Eq) as (_ & _ & _ & _ & _ & _ & _ & _ & Tn). cbn [ts_sky ts_point].
    split; [rewrite Tn, Pt; exact Et|]. split; [reflexivity|]. unfold trip_load. cbn [ts_sky ts_up ts_down ts_point]. rewrite map_app, sum_both, En. specialize (W n p air D). lia. }
  destruct (ts_up s) as [|[n u] up] eqn:Eu; [destruct (rs_air (ts_sky s)) as [|f air] eqn:Ea; [destruct (ts_down s) as [|[[n g] w] down] eqn:Ed|]|].
  - exfalso. apply Nq. split; [exact Ea|]. split; [exact Eu|exact Ed].
  - exists (TDown now 0). assert (exists s' ev, tstep s (TDown now 0) = Some (Ok (s', ev))) as (s' & ev & St).
    { cbn [t_step]. rewrite Ed. cbn [take_out]. fold now. rewrite Z.leb_refl. destruct w; do 2 eexists; reflexivity. }
    exists s', ev. split; [right; right; reflexivity|]. split; [exact St|]. destruct (keep_tstep s tr (TDown now 0) _ V Hnow Logic.I St) as (s1 & ev1 & Q & V' & _). injection Q as <- <-. split; [exact V'|].
    cbn [t_step] in St. rewrite Ed in St. cbn [take_out] in St. fold now in St. rewrite Z.leb_refl, Eu in St. unfold trip_load. rewrite Ed, Eu, Ea. cbn [map sum fold_right].
    destruct w; injection St as <- <-; cbn [ts_sky ts_up ts_down ts_point rs_now rs_pit rs_air]; (split; [reflexivity|]; split; [reflexivity|]); rewrite Ea; cbn [map sum fold_right].
    + unfold down_load at 2. cbn [snd]. fold (sum (map down_load down)). destruct (_ && _); cbn [app map sum fold_right up_load snd]; lia.
    + unfold down_load at 2. cbn [snd]. fold (sum (map down_load down)). lia.
  - exists (TMove now 0). destruct (Sat (RMove now 0) []) as (s' & ev & St & K).
    + split; [exact Hnow|exact Logic.I].
    + exact Logic.I.
    + reflexivity.
    + cbn [r_step]. rewrite Ea. cbn [take_out]. fold now. rewrite Z.leb_refl. eauto.
    + intros x [].
    + intros x [].
    + intros m p air' (f' & T & -> & ->). rewrite Ea in T. cbn [take_out] in T. injection T as <- <-. cbn [map sum fold_right]. fold (sum (map air_load air)).
      destruct (i_air _ _ _ _ _ _ _ _ V1 f) as (_ & z & _ & _ & Wf); [rewrite Ea; left; reflexivity|]. unfold air_load at 2, weighs. destruct (fl_what f); [lia|lia|destruct Wf].
    + exists s', ev. split; [right; left; reflexivity|]. cbn [t_step]. rewrite Eu. split; [exact St|exact K].
  - exists (TUp now 0). destruct (V2 n u) as (Hn & Hu); [rewrite ?Eu; left; reflexivity|]. destruct u as [l|].
    + destruct (Sat (RAsk now n l) up) as (s' & ev & St & K).
      * split; [exact Hnow|exact Hu].
      * exact Hn.
      * reflexivity.
      * cbn [r_step]. fold now. rewrite Z.leb_refl. eauto.
      * intros x Hx. right. exact Hx.
      * intros x [<-|Hx]; [right; left; eauto|auto].
      * intros m p air' (-> & -> & ->). cbn [map sum fold_right]. fold (sum (map up_load up)). unfold up_load at 2, weighs. cbn [snd fst]. lia.
      * exists s', ev. split; [left; reflexivity|]. cbn [t_step]. rewrite Eu. cbn [take_out]. split; [exact St|exact K].
    + destruct (Sat (RData now n) up) as (s' & ev & St & K).
      * split; [exact Hnow|exact Logic.I].
      * exact Hn.
      * reflexivity.
      * cbn [r_step]. fold now. rewrite Z.leb_refl. eauto.
      * intros x Hx. right. exact Hx.
      * intros x [<-|Hx]; [right; right; eauto|auto].
      * intros m p air' (-> & -> & ->). cbn [map sum fold_right]. fold (sum (map up_load up)). unfold up_load at 2, weighs. cbn [snd fst]. lia.
      * exists s', ev. split; [left; reflexivity|]. cbn [t_step]. rewrite Eu. cbn [take_out]. split; [exact St|exact K].
Qed.

Lemma quiet_dec : forall s, all_quiet s \/ ~ all_quiet s.
Proof.
  intros s. unfold all_quiet. destruct (rs_air (ts_sky s)), (ts_up s), (ts_down s); try (right; intros (A & B & C); discriminate). left. auto.
Qed.

Lemma trip_rest : forall s tr, tinv s tr -> exists ops s' tr', Forall (one_more (rs_now (ts_sky s))) ops /\ trun s ops = Some (Ok (s', tr')) /\ all_quiet s'.
Proof.
  intros s tr. remember (trip_load s) as w eqn:W. revert s tr W. induction w as [w IH] using lt_wf_ind. intros s tr W V.
  destruct (quiet_dec s) as [Q|Q]; [exists [], s, []; auto|]. destruct (trip_less s tr V Q) as (o & s1 & ev & Ho & St & V1 & N1 & _ & L).
  destruct (IH (trip_load s1) ltac:(lia) s1 (tr ++ ev) eq_refl V1) as (ops & s2 & tr2 & F & R & A).
  exists (o :: ops), s2, (ev ++ tr2). split; [constructor; [exact Ho|rewrite <- N1; exact F]|]. split; [|exact A]. cbn [t_run]. rewrite St, R. reflexivity.
Qed.
End Keep.
