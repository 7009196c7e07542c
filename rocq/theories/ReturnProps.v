(** Data finds its way back to everybody who asked. *)
From Coq Require Import ZArith List Bool Lia Arith.
From Verif Require Import Base SatAddrModel SatAddrProofs ConstellationModel ConstellationSpec ConstellationProofs ConstellationProps IslModel IslSpec IslProofs IslProps
  GeoTagModel GeoTagSpec GeoTagProofs GeoTagProps GeoTagRoute GeoTagNetProps PendingModel PendingSpec PendingProofs PendingProps ReturnModel ReturnSpec ReturnProofs.
Import ListNotations.
Open Scope Z_scope.

Section Up.
Variables (h : host) (id : Z) (P S : nat) (adds : list (nat * nat * nat)) (addrs : list sat_address) (links : list (nat * nat)) (nh : nat -> list face).
Variables (cid : Z) (q j : nat).
Hypothesis Up : set_up h id P S adds addrs links nh.
Hypothesis Hq : (q < P)%nat.
Hypothesis Hj : (j < S)%nat.

Notation net := (launched_net adds addrs links P S).
Notation sats := (map dev_of adds).
Notation target := (placed adds (q, j)).
Notation tag := (cid, Z.of_nat q, Z.of_nat j).

Definition node_dist (n : nat) : Z := match find (fun x => (placed adds x =? n)%nat) (slots P S) with Some x => d_dist P S q j x | None => 0 end.

Lemma u_node : forall n, In n sats -> exists p i, (p < P)%nat /\ (i < S)%nat /\ n = placed adds (p, i).
Proof.
  destruct Up as (U1 & U2 & U3 & U4 & U5 & U6 & (c & ids & U7 & U8 & U9 & U10) & U11).
  intros n Hn. apply in_map_iff in Hn. destruct Hn as ([[p i] d] & <- & Hin). exists p, i.
  pose proof (d_adm h id P S adds c addrs U7) as [_ F]. rewrite Forall_forall in F. pose proof (F _ Hin) as G. cbn in G.
  rewrite (d_placed_eq h id P S adds c addrs U7 _ _ _ Hin). cbn. tauto.
Qed.

Lemma u_in : forall p i, (p < P)%nat -> (i < S)%nat -> In (placed adds (p, i)) sats.
Proof.
  destruct Up as (U1 & U2 & U3 & U4 & U5 & U6 & (c & ids & U7 & U8 & U9 & U10) & U11).
  intros p i Hp Hi. pose proof (d_placed h id P S adds c addrs U7 U5 p i Hp Hi) as Q. apply (in_map dev_of) in Q. exact Q.
Qed.

Lemma u_dist : forall p i, (p < P)%nat -> (i < S)%nat -> node_dist (placed adds (p, i)) = d_dist P S q j (p, i).
Proof.
  destruct Up as (U1 & U2 & U3 & U4 & U5 & U6 & (c & ids & U7 & U8 & U9 & U10) & U11).
  intros p i Hp Hi. unfold node_dist. destruct (find (fun x => (placed adds x =? placed adds (p, i))%nat) (slots P S)) as [x|] eqn:F.
  - apply find_some in F. destruct F as [F1 F2]. apply Nat.eqb_eq in F2.
    apply (d_inj h id P S adds c addrs U7 U5 U6) in F2; [congruence|exact F1|apply in_slots; auto].
  - assert (Hs : In (p, i) (slots P S)) by (apply in_slots; auto). apply (find_none _ _ F) in Hs. rewrite Nat.eqb_refl in Hs. discriminate.
Qed.

Lemma u_pos : forall n, In n sats -> 0 <= node_dist n.
Proof. intros n Hn. apply u_node in Hn. destruct Hn as (p & i & Hp & Hi & ->). rewrite u_dist by assumption. unfold d_dist, griddist.
  pose proof (ringdist_nonneg (Z.of_nat P) (fst (zslot (p, i))) (fst (zslot (q, j))) ltac:(lia)).
  pose proof (ringdist_nonneg (Z.of_nat S) (snd (zslot (p, i))) (snd (zslot (q, j))) ltac:(lia)). lia.
Qed.

Lemma u_sym : forall k n m, ends links k n m -> ends links k m n.
Proof. intros k n m [E|E]; [right|left]; exact E. Qed.

Lemma u_remote : forall k n m, In n sats -> ends links k n m -> remote_node net n (IslFace k) = Ok m.
Proof.
  destruct Up as (U1 & U2 & U3 & U4 & U5 & U6 & (c & ids & U7 & U8 & U9 & U10) & U11).
  intros k n m Hn E. apply u_node in Hn. destruct Hn as (p & i & Hp & Hi & ->). apply d_remote; assumption.
Qed.

Lemma u_react : forall n f rq, In n sats -> from_far sats node_dist (ends links) n f -> rq_tag rq = Some tag -> rq_ingress rq = f -> rq_sup rq <> SUPPRESS ->
  (forall g, rq_scope rq g = false) ->
  (n = target /\ after_receive_interest net h n (nh n) rq = Ok [SendInterest GroundFace]) \/
  (n <> target /\ exists k m, after_receive_interest net h n (nh n) rq = Ok [SendInterest (IslFace k)] /\ ends links k n m /\ In m sats /\ node_dist m < node_dist n).
Proof.
  destruct Up as (U1 & U2 & U3 & U4 & U5 & U6 & (c & ids & U7 & U8 & U9 & U10) & U11).
  intros n f rq Hn Hf T Ig Su Sc. apply u_node in Hn. destruct Hn as (p & i & Hp & Hi & ->).
  set (ctx := fun (_ : nat) (g : face) => mkReq (rq_tag rq) g (rq_sup rq) (rq_out rq) (rq_scope rq) (rq_now rq)).
  assert (Hctx : forall n f, rq_tag (ctx n f) = Some tag /\ rq_ingress (ctx n f) = f /\ rq_sup (ctx n f) <> SUPPRESS /\ forall g, rq_scope (ctx n f) g = false) by (intros; cbn; auto).
  assert (Ec : ctx (placed adds (p, i)) f = rq) by (unfold ctx; destruct rq; cbn in *; subst; reflexivity).
  assert (Ok0 : ingress_ok P S adds links q j p i f).
  { destruct Hf as [->|(k & m & -> & E & Hm & D)]; [left; reflexivity|]. right. apply u_node in Hm. destruct Hm as (a & b & Ha & Hb & ->).
    exists k, a, b. rewrite !u_dist in D by assumption. split; [reflexivity|]. split; [exact Ha|]. split; [exact Hb|]. split; [exact E|]. lia. }
  destruct (Nat.eq_dec (placed adds (p, i)) target) as [Et|Nt].
  - left. split; [exact Et|]. apply (d_inj h id P S adds c addrs U7 U5 U6) in Et; [|apply in_slots; auto|apply in_slots; auto]. injection Et as -> ->.
    pose proof (d_here h id P S adds c addrs ids links U1 U2 U3 U4 U7 U5 U6 U8 U9 U10 nh ctx cid q j Hq Hj U11 Hctx f Ok0) as X. unfold d_handle in X. rewrite Ec in X. exact X.
  - right. split; [exact Nt|].
    destruct (d_next h id P S adds c addrs ids links U1 U2 U3 U4 U7 U5 U6 U8 U9 U10 nh ctx cid q j Hq Hj U11 Hctx p i f Hp Hi ltac:(congruence) Ok0) as (k & a & b & Ha & Hb & Dd & X & _ & E).
    unfold d_handle in X. rewrite Ec in X. exists k, (placed adds (a, b)). split; [exact X|]. split; [exact E|]. split; [apply u_in; assumption|]. rewrite !u_dist by assumption. lia.
Qed.

Lemma u_nodup : NoDup sats.
Proof. apply Up. Qed.

Definition uinv (t0 life : Z) := rinv sats target node_dist (ends links) t0 life.

Lemma u_start : forall t0 life, 0 < life -> uinv t0 life (rs_init t0) [].
Proof.
  intros t0 life Hl. constructor; cbn; try discriminate; try lia; try contradiction. intros n. split; [discriminate|]. intros (e & E & _). discriminate.
Qed.
End Up.

Lemma r_run_app : forall nw h nh scope tag a b s, r_run nw h nh scope tag s (a ++ b) =
  match r_run nw h nh scope tag s a with
  | Some (Ok (s1, t1)) => match r_run nw h nh scope tag s1 b with Some (Ok (s2, t2)) => Some (Ok (s2, t1 ++ t2)) | r => r end
  | r => r
  end.
Proof.
  intros nw h nh scope tag a b. induction a as [|o a IH]; intros s; cbn [app r_run].
  - destruct (r_run nw h nh scope tag s b) as [[[s2 t2]| | |]|]; reflexivity.
  - destruct (r_step nw h nh scope tag s o) as [[[s1 x]| | |]|]; try reflexivity. rewrite IH.
    destruct (r_run nw h nh scope tag s1 a) as [[[s2 t2]| | |]|]; try reflexivity.
    destruct (r_run nw h nh scope tag s2 b) as [[[s3 t3]| | |]|]; reflexivity.
Qed.

(** Within a lifetime nothing ends the program, no Interest is refused and none given up, and a satellite sends Data down only where
    somebody waits. *)
Theorem return_safe : forall h id P S adds addrs links nh scope cid q j t0 life ops r,
  set_up h id P S adds addrs links nh -> (q < P)%nat -> (j < S)%nat -> (forall g, scope g = false) -> 0 < life ->
  Forall (timely t0 life) ops -> Forall (at_sat (map dev_of adds)) ops ->
  r_run (launched_net adds addrs links P S) h nh scope (cid, Z.of_nat q, Z.of_nat j) (rs_init t0) ops = Some r ->
  exists s tr, r = Ok (s, tr) /\ Forall quiet tr /\
    forall a x b n, tr = a ++ x :: b -> serves n x = true -> waits_below a n = true.
Proof.
  intros h id P S adds addrs links nh scope cid q j t0 life ops r Up Hq Hj Free Hl Ti Sa R.
  destruct (keep_run _ h nh scope (cid, Z.of_nat q, Z.of_nat j) (map dev_of adds) (placed adds (q, j)) (node_dist P S adds q j) (ends links) Free
    (u_pos h id P S adds addrs links nh q j Up Hq Hj) (u_sym links) (u_remote h id P S adds addrs links nh Up)
    (u_react h id P S adds addrs links nh cid q j Up Hq Hj) t0 life ops (rs_init t0) [] r (u_start P S adds links q j Hq Hj t0 life Hl) Ti Sa R)
    as (s & tr & -> & _ & Q & Sv). exists s, tr. auto.
Qed.
Print Assumptions return_safe.

(** ** The answer *)
(** Once no Interest is on the way any more, Data that the target's satellite gets from below comes to everybody: when nothing is on the
    way, nobody waits.  [tm] says when things happen. *)
Definition answered (tm : Z -> Z -> rop -> Prop) : Prop := forall h id P S adds addrs links nh scope cid q j t0 life ops s tr t moves s' tr',
  set_up h id P S adds addrs links nh -> (q < P)%nat -> (j < S)%nat -> (forall g, scope g = false) -> 0 < life ->
  Forall (at_sat (map dev_of adds)) ops -> Forall (fun o => exists t i, o = RMove t i) moves ->
  Forall (tm t0 life) (ops ++ RData t (placed adds (q, j)) :: moves) ->
  r_run (launched_net adds addrs links P S) h nh scope (cid, Z.of_nat q, Z.of_nat j) (rs_init t0) ops = Some (Ok (s, tr)) ->
  (forall f, In f (rs_air s) -> fl_what f = PData) ->
  r_run (launched_net adds addrs links P S) h nh scope (cid, Z.of_nat q, Z.of_nat j) s (RData t (placed adds (q, j)) :: moves) = Some (Ok (s', tr')) ->
  rs_air s' = [] ->
  forall n, waits_below (tr ++ tr') n = false.

Theorem return_answered : answered timely.
Proof.
  intros h id P S adds addrs links nh scope cid q j t0 life ops s tr t moves s' tr' Up Hq Hj Free Hl Sa Mv Ti R Da R' Re.
  apply Forall_app in Ti. destruct Ti as [Ti Ti2]. inversion Ti2 as [|? ? To Ti']; subst.
  set (sats := map dev_of adds) in *. set (target := placed adds (q, j)) in *. set (tag := (cid, Z.of_nat q, Z.of_nat j)) in *. set (nw := launched_net adds addrs links P S) in *.
  pose proof (u_pos h id P S adds addrs links nh q j Up Hq Hj) as Ps. pose proof (u_remote h id P S adds addrs links nh Up) as Rm. pose proof (u_react h id P S adds addrs links nh cid q j Up Hq Hj) as Rc. fold sats target tag nw in Ps, Rm, Rc.
  destruct (keep_run nw h nh scope tag sats target (node_dist P S adds q j) (ends links) Free Ps (u_sym links) Rm Rc t0 life ops (rs_init t0) [] _ (u_start P S adds links q j Hq Hj t0 life Hl) Ti Sa R)
    as (s0 & tr0 & E & I & _). injection E as <- <-. cbn [app] in I.
  cbn [r_run] in R'. destruct (r_step nw h nh scope tag s (RData t target)) as [[[s1 x]| | |]|] eqn:St; try discriminate.
  assert (Ht : In target sats) by (apply (u_in h id P S adds addrs links nh Up); assumption).
  pose proof St as St'. cbn [r_step] in St'. destruct (Z.leb_spec (rs_now s) t) as [Hn|]; [|discriminate].
  destruct (keep_data nw h nh scope tag sats target (node_dist P S adds q j) (ends links) Free Ps (u_sym links) Rm Rc t0 life s tr (rs_air s) target GroundFace t I Ht Hn (proj1 To) (or_introl eq_refl)
    (fun x K => K) (fun x K => or_introl K)) as (s1' & x' & E1 & I1 & _ & _ & _ & new & N1 & N2 & _ & N4).
  rewrite E1 in St'. injection St' as -> ->.
  assert (Od : only_data target s1).
  { split; [rewrite N2; apply put_pit_at|]. rewrite N1. apply Forall_app. split; [apply Forall_forall; exact Da|exact N4]. }
  destruct (r_run nw h nh scope tag s1 moves) as [[[s2 tr2]| | |]|] eqn:R2; try discriminate. injection R' as -> <-.
  assert (Sm : Forall (at_sat sats) moves).
  { apply Forall_forall. intros o Ho. rewrite Forall_forall in Mv. destruct (Mv o Ho) as (t' & i & ->). exact Logic.I. }
  pose proof (data_run nw h nh scope tag sats target (node_dist P S adds q j) (ends links) Free Ps (u_sym links) Rm Rc t0 life moves s1 _ s' tr2 I1 Od Ti' Mv R2) as [Pt _].
  destruct (keep_run nw h nh scope tag sats target (node_dist P S adds q j) (ends links) Free Ps (u_sym links) Rm Rc t0 life moves s1 _ _ I1 Ti' Sm R2) as (s3 & tr3 & E3 & I3 & _).
  injection E3 as <- <-. rewrite <- app_assoc in I3. cbn [app] in I3.
  intros n. destruct (waits_below (tr ++ x :: tr2) n) eqn:W; [|reflexivity]. apply (i_wait _ _ _ _ _ _ _ _ I3) in W. destruct W as (e & W & _).
  rewrite (rest_none nw h nh tag sats target (node_dist P S adds q j) (ends links) Ps (u_sym links) Rm Rc t0 life s' _ I3 Re Pt n) in W. discriminate.
Qed.
Print Assumptions return_answered.

(** Whatever has happened, all that is on the way can arrive at once, and then nothing is on the way. *)
Theorem return_rests : forall h id P S adds addrs links nh scope cid q j t0 life ops s tr,
  set_up h id P S adds addrs links nh -> (q < P)%nat -> (j < S)%nat -> (forall g, scope g = false) -> 0 < life ->
  Forall (timely t0 life) ops -> Forall (at_sat (map dev_of adds)) ops ->
  r_run (launched_net adds addrs links P S) h nh scope (cid, Z.of_nat q, Z.of_nat j) (rs_init t0) ops = Some (Ok (s, tr)) ->
  exists moves s' tr', Forall (fun o => o = RMove (rs_now s) 0) moves /\
    r_run (launched_net adds addrs links P S) h nh scope (cid, Z.of_nat q, Z.of_nat j) s moves = Some (Ok (s', tr')) /\ rs_air s' = [].
Proof.
  intros h id P S adds addrs links nh scope cid q j t0 life ops s tr Up Hq Hj Free Hl Ti Sa R.
  pose proof (u_pos h id P S adds addrs links nh q j Up Hq Hj) as Ps. pose proof (u_remote h id P S adds addrs links nh Up) as Rm. pose proof (u_react h id P S adds addrs links nh cid q j Up Hq Hj) as Rc.
  destruct (keep_run _ h nh scope _ (map dev_of adds) (placed adds (q, j)) (node_dist P S adds q j) (ends links) Free Ps (u_sym links) Rm Rc t0 life ops (rs_init t0) [] _ (u_start P S adds links q j Hq Hj t0 life Hl) Ti Sa R)
    as (s0 & tr0 & E & I & _). injection E as <- <-.
  exact (to_rest _ h nh scope _ (map dev_of adds) (placed adds (q, j)) (node_dist P S adds q j) (ends links) Free Ps (u_sym links) Rm Rc t0 life (u_nodup h id P S adds addrs links nh Up) s tr I).
Qed.
Print Assumptions return_rests.

(** ** Beyond the lifetime *)
(** An Interest that a satellite suppresses prolongs the record there only: the same consumer asks again after five milliseconds, the Data
    comes two milliseconds after the first Interest's lifetime, and the satellite towards the target has forgotten who asked. *)
Lemma ring3_up : set_up LittleEndian 1 3 1 ring3 ring3_addrs ring3_links ring3_nh.
Proof.
  unfold set_up. split; [unfold is_u16; lia|]. split; [lia|]. split; [lia|]. split; [lia|]. split; [reflexivity|]. split.
  { cbn. repeat constructor; cbn; intuition discriminate. }
  split.
  - destruct (run_adds LittleEndian (con_new 1 3 1) ring3) as [[c addrs]| | |] eqn:E; try (vm_compute in E; discriminate E).
    exists c, [1; 1; 1]. vm_compute in E. injection E as <- <-. split; [reflexivity|]. split; [repeat constructor|]. split; [reflexivity|]. vm_compute. reflexivity.
  - intros n f Hn. unfold ends, ring3_links. cbn in Hn. split.
    + destruct Hn as [<-|[<-|[<-|[]]]]; cbn; intros [<-|[<-|[<-|[]]]]; auto;
        (right; eexists; eexists; split; [reflexivity|]; cbn; first [left; reflexivity|right; reflexivity]).
    + intros [->|(k & m & -> & Hk)].
      * destruct Hn as [<-|[<-|[<-|[]]]]; cbn; auto.
      * destruct k as [|[|[|k]]]; cbn in Hk;
          destruct Hn as [<-|[<-|[<-|[]]]], Hk as [Hk|Hk]; try discriminate Hk; cbn; auto 6;
          destruct k; discriminate.
Qed.

Theorem return_late_refuted : ~ answered (fun _ life o => match o with RAsk _ _ l => life <= l | _ => True end).
Proof.
  intros A.
  set (ops := [RAsk 0 0%nat (ms 4000); RMove (ms 1) 0; RAsk (ms 5) 0%nat (ms 4000)]).
  destruct (r_run three LittleEndian ring3_nh free (1, 1, 0) (rs_init 0) ops) as [[[s tr]| | |]|] eqn:R; try (vm_compute in R; discriminate R).
  destruct (r_run three LittleEndian ring3_nh free (1, 1, 0) s [RData (ms 4002) 1]) as [[[s' tr']| | |]|] eqn:R';
    try (vm_compute in R; injection R as <- <-; vm_compute in R'; discriminate R').
  assert (W : waits_below (tr ++ tr') 0 = false).
  { apply (A LittleEndian 1 3%nat 1%nat ring3 ring3_addrs ring3_links ring3_nh free 1 1%nat 0%nat 0 (ms 4000) ops s tr (ms 4002) [] s' tr' ring3_up); try exact R; try exact R'; try lia.
    - reflexivity.
    - reflexivity.
    - repeat constructor; cbn; auto.
    - constructor.
    - unfold ops. repeat constructor; cbn; lia.
    - vm_compute in R. injection R as <- <-. cbn. intros f [].
    - vm_compute in R. injection R as <- <-. vm_compute in R'. injection R' as <- <-. reflexivity. }
  vm_compute in R. injection R as <- <-. vm_compute in R'. injection R' as <- <-. vm_compute in W. discriminate.
Qed.
Print Assumptions return_late_refuted.

(** Three by four satellites, Interests below (0,0), below (1,0) and below (0,1) for what (2,2) can get: they meet at (2,0) and (2,1).  One
    Data is enough; it goes back over five links and down in three places. *)
Definition ex_return (ops : list rop) : option (list flight * list nat * list bool) :=
  match ex_net with
  | Ok (nw, links) =>
      match r_run nw LittleEndian (ex_faces links) free (7, 2, 2) (rs_init 0) ops with
      | Some (Ok (s, tr)) => Some (rs_air s, map (fun x => fst (fst x)) (filter (fun x => serves (fst (fst x)) x) tr), map (waits_below tr) [0; 10; 1]%nat)
      | _ => None
      end
  | _ => None
  end.
Definition ex_asks := [RAsk 0 0 (ms 4000); RAsk 0 10 (ms 4000); RMove (ms 2) 0; RMove (ms 3) 0; RAsk (ms 4) 1 (ms 4000); RMove (ms 5) 0; RMove (ms 6) 0; RMove (ms 6) 0]%nat.
Example return_case :
  ex_return ex_asks = Some ([], [], [true; true; true]) /\
  match ex_return (ex_asks ++ [RData (ms 50) 22%nat; RMove (ms 51) 0; RMove (ms 52) 0]) with
  | Some (air, served, waiting) => map (fun f => (fl_to f, fl_what f)) air = [(1, PData); (0, PData); (10, PData)]%nat /\ served = [] /\ waiting = [true; true; true]
  | None => False
  end /\
  ex_return (ex_asks ++ RData (ms 50) 22%nat :: map (fun t => RMove (ms t) 0) [51; 52; 53; 54; 55]) = Some ([], [1; 0; 10]%nat, [false; false; false]).
Proof. vm_compute. repeat split; reflexivity. Qed.
