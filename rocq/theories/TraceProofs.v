(** Proofs about the traces. *)
From Coq Require Import ZArith List Lia Bool Ascii String.
From Verif Require Import Base SatAddrModel DeviceModel DeviceSpec DeviceProofs TraceModel TraceSpec.
Import ListNotations.
Open Scope Z_scope.

Section Lists.
Context {C : Type}.
Lemma shown_app : forall s (a b : list (effect C)), shown s (a ++ b) = shown s a ++ shown s b.
Proof. intros. apply flat_map_app. Qed.
Lemma calls_app : forall a b : list (effect C), calls (a ++ b) = calls a ++ calls b.
Proof. intros. apply flat_map_app. Qed.
Lemma fired_app : forall s u (a b : list (effect C)), fired s u (a ++ b) = (fired s u a + fired s u b)%nat.
Proof. intros. unfold fired. rewrite shown_app, map_app, count_occ_app. reflexivity. Qed.
End Lists.

(** * The devices of satellites *)

Section Serial.
Variable dur : Z -> Z.

Definition one_pending (d : sdev) : Prop :=
  (s_busy d = false /\ s_pending d = [] /\ s_queue d = []) \/ exists c, s_busy d = true /\ s_pending d = [c].

Inductive tserial (d : sdev) : list (Z * Z) -> list (effect airing) -> sdev -> Prop :=
| ts_refuse t u tags : tserial d [(t, u)] [Tr MacTx t u; Tr QueueDrop t u; Tr MacTxDrop t u; Ret u false]
    (mkS t (s_busy d) (s_queue d) tags (s_pending d))
| ts_wait t u tags : s_busy d = true -> tserial d [(t, u)] [Tr MacTx t u; Tr Enqueue t u; Ret u true]
    (mkS t true (s_queue d ++ [u]) tags (s_pending d))
| ts_go t u p tags : s_busy d = false ->
    tserial d [(t, u)] [Tr MacTx t u; Tr Enqueue t u; Tr Dequeue t u; Tr Sniffer t u; Tr PhyTxBegin t u; Call (mkAir u t p); Ret u true]
      (mkS t true [] tags [mkDone (t + dur u) u p])
| ts_rest c tags : s_pending d = [c] -> s_queue d = [] -> tserial d [] [Tr PhyTxEnd (c_end c) (c_uid c)] (mkS (c_end c) false [] tags [])
| ts_next c u q p tags : s_pending d = [c] -> s_queue d = u :: q ->
    tserial d [] [Tr PhyTxEnd (c_end c) (c_uid c); Tr Dequeue (c_end c) u; Tr Sniffer (c_end c) u; Tr PhyTxBegin (c_end c) u; Call (mkAir u (c_end c) p)]
      (mkS (c_end c) true q tags [mkDone (c_end c + dur u) u p]).

Record tk (d : sdev) (reqs : list (Z * Z)) (tr : list (effect airing)) : Prop := mkTK {
  k_pending : one_pending d;
  k_entry : exists vs, map fst vs = reqs /\ filter entry tr = flat_map taken_or_refused vs;
  k_queue : map snd (shown Enqueue tr) = map snd (shown Dequeue tr) ++ s_queue d;
  k_launch : filter launching tr = flat_map firing (calls tr);
  k_begin : shown Dequeue tr = starts (calls tr);
  k_air : exists l, Forall (fun x : Z * Z * Z => let '(t, t', u) := x in t' = t + dur u) l /\
    filter on_air tr = flat_map transmission l ++ begun (match s_pending d with c :: _ => Some (c_end c - dur (c_uid c), c_uid c) | [] => None end) }.

Lemma tk_init : tk s_init [] [].
Proof.
  constructor; try reflexivity.
  - left. repeat split.
  - exists []. split; reflexivity.
  - exists []. split; [constructor|reflexivity].
Qed.

Lemma tserial_pending : forall d reqs ev d', one_pending d -> tserial d reqs ev d' -> one_pending d'.
Proof.
  intros d reqs ev d' P T. destruct T; cbn; unfold one_pending; cbn.
  - exact P.
  - destruct P as [(B & _)|(c & _ & P)]; [congruence|]. right. exists c. auto.
  - right. eexists. auto.
  - left. auto.
  - right. eexists. auto.
Qed.

Lemma tserial_inv : forall d reqs tr req ev d', tk d reqs tr -> tserial d req ev d' -> tk d' (reqs ++ req) (tr ++ ev).
Proof.
  intros d reqs tr req ev d' [P E Q L B A] T. pose proof (tserial_pending _ _ _ _ P T) as P'.
  constructor; [exact P'| | | | |].
  - destruct E as (vs & F & G). rewrite filter_app, G.
    destruct T as [t u tags|t u tags Bu|t u p tags Bu|c tags Pe Qu|c u q p tags Pe Qu]; cbn [filter entry].
    + exists (vs ++ [(t, u, false)]). rewrite map_app, flat_map_app, F. split; reflexivity.
    + exists (vs ++ [(t, u, true)]). rewrite map_app, flat_map_app, F. split; reflexivity.
    + exists (vs ++ [(t, u, true)]). rewrite map_app, flat_map_app, F. split; reflexivity.
    + exists vs. rewrite !app_nil_r. auto.
    + exists vs. rewrite !app_nil_r. auto.
  - rewrite !shown_app, !map_app, Q. destruct T as [t u tags|t u tags Bu|t u p tags Bu|c tags Pe Qu|c u q p tags Pe Qu]; cbn; rewrite ?app_nil_r, <- ?app_assoc; try reflexivity.
    + destruct P as [(_ & _ & Z)|(c & Z & _)]; [|congruence]. rewrite Z. reflexivity.
    + rewrite Qu. apply app_nil_r.
    + rewrite Qu. reflexivity.
  - rewrite filter_app, calls_app, flat_map_app, L. destruct T; cbn; rewrite ?app_nil_r; reflexivity.
  - rewrite shown_app, calls_app, starts_app, B. destruct T; cbn; rewrite ?app_nil_r; reflexivity.
  - destruct A as (l & F & G). rewrite filter_app, G.
    destruct T as [t u tags|t u tags Bu|t u p tags Bu|c tags Pe Qu|c u q p tags Pe Qu]; cbn [s_pending filter on_air].
    + exists l. rewrite app_nil_r. auto.
    + exists l. rewrite app_nil_r. auto.
    + destruct P as [(_ & Pe & _)|(c & Z & _)]; [|congruence]. rewrite Pe. cbn [begun c_end c_uid]. exists l. split; [exact F|].
      rewrite app_nil_r. replace (t + dur u - dur u) with t by lia. reflexivity.
    + rewrite Pe. cbn [begun]. exists (l ++ [(c_end c - dur (c_uid c), c_end c, c_uid c)]). split.
      * apply Forall_app. split; [exact F|]. constructor; [lia|constructor].
      * rewrite flat_map_app, app_nil_r, <- app_assoc. reflexivity.
    + rewrite Pe. cbn [begun c_end c_uid]. exists (l ++ [(c_end c - dur (c_uid c), c_end c, c_uid c)]). split.
      * apply Forall_app. split; [exact F|]. constructor; [lia|constructor].
      * rewrite flat_map_app, <- !app_assoc. cbn. replace (c_end c + dur u - dur u) with (c_end c) by lia. reflexivity.
Qed.

Variable fits : list Z -> Z -> bool.

Lemma st_traced : forall d o d' ev, one_pending d -> st_step fits dur d o = Some (Ok (d', ev)) -> tserial d (s_asked [o]) ev d'.
Proof.
  intros d [t u proto|] d' ev P H; cbn [st_step] in H.
  - destruct (_ && _); [|discriminate]. apply some_inj in H. unfold st_send in H.
    destruct (find_tag u (s_tags d)); [discriminate|]. destruct (fits (s_queue d) u).
    + destruct (s_busy d) eqn:B; [injection H as <- <-; apply ts_wait; exact B|].
      destruct P as [(_ & P & Q)|(c & Z & _)]; [|congruence].
      unfold st_transmit_start in H. cbn [s_busy s_queue s_tags s_now s_pending] in H. rewrite Q in H. cbn [app assert_ rbind] in H.
      rewrite find_tag_cons, Z.eqb_refl in H. cbn in H. injection H as <- <-. rewrite P. apply ts_go. exact B.
    + injection H as <- <-. apply ts_refuse.
  - destruct (s_pending d) as [|c l] eqn:E; [discriminate|]. apply some_inj in H.
    destruct P as [(_ & P & _)|(c' & B & P)]; [rewrite P in E; discriminate|]. rewrite P in E. injection E as <- <-.
    unfold st_complete in H. destruct (s_queue d) as [|u q] eqn:Q; [injection H as <- <-; apply (ts_rest _ c'); assumption|].
    unfold st_transmit_start in H; cbn [s_busy s_queue s_tags s_now s_pending] in H. rewrite B in H. cbn [assert_ rbind] in H.
    destruct (find_tag u _) as [proto|]; [|discriminate]. cbn in H. injection H as <- <-.
    apply (ts_next _ c'); assumption.
Qed.

Lemma it_traced : forall d o d' ev, one_pending d -> it_step fits dur d o = Some (Ok (d', ev)) -> tserial d (s_asked [o]) ev d'.
Proof.
  intros d [t u proto|] d' ev P H; cbn [it_step] in H.
  - destruct (_ && _); [|discriminate]. apply some_inj in H. unfold it_send in H. destruct (fits (s_queue d) u).
    + destruct (s_busy d) eqn:B; [injection H as <- <-; apply ts_wait; exact B|].
      destruct P as [(_ & P & Q)|(c & Z & _)]; [|congruence].
      rewrite Q in H. cbn in H. injection H as <- <-. rewrite P. apply ts_go. exact B.
    + injection H as <- <-. apply ts_refuse.
  - destruct (s_pending d) as [|c l] eqn:E; [discriminate|]. apply some_inj in H.
    destruct P as [(_ & P & _)|(c' & B & P)]; [rewrite P in E; discriminate|]. rewrite P in E. injection E as <- <-.
    unfold it_complete in H. destruct (s_queue d) as [|u q] eqn:Q; [injection H as <- <-; apply (ts_rest _ c'); assumption|].
    cbn in H. injection H as <- <-. apply (ts_next _ c'); assumption.
Qed.

Lemma s_asked_app : forall a b, s_asked (a ++ b) = s_asked a ++ s_asked b.
Proof. intros. apply flat_map_app. Qed.

Lemma st_run_inv : forall step, (forall d o d' ev, one_pending d -> step d o = Some (Ok (d', ev)) -> tserial d (s_asked [o]) ev d') ->
  forall ops d reqs tr d' ev, tk d reqs tr -> st_run step d ops = Some (Ok (d', ev)) -> tk d' (reqs ++ s_asked ops) (tr ++ ev).
Proof.
  intros step St. induction ops as [|o l IH]; intros d reqs tr d' ev K R; cbn [st_run] in R.
  - injection R as <- <-. cbn. rewrite !app_nil_r. exact K.
  - destruct (step d o) as [[[d1 e1]| | |]|] eqn:E; try discriminate.
    destruct (st_run step d1 l) as [[[d2 e2]| | |]|] eqn:F; try discriminate. injection R as <- <-.
    change (o :: l) with ([o] ++ l). rewrite s_asked_app, !app_assoc. eapply IH; [|exact F].
    eapply tserial_inv; [exact K|]. apply St; [apply K|exact E].
Qed.

Lemma st_erase : forall d o, s_erase o (st_step fits dur d o) = s_step fits dur d o.
Proof.
  intros d [t u proto|]; cbn [st_step s_step].
  - destruct (_ && _); [|reflexivity]. cbn. f_equal. unfold st_send, s_send. destruct (find_tag u (s_tags d)); [reflexivity|].
    destruct (fits (s_queue d) u); [|reflexivity]. destruct (s_busy d); [reflexivity|].
    unfold st_transmit_start, s_transmit_start. cbn [assert_ rbind s_busy s_queue s_tags]. destruct (s_queue d ++ [u]) as [|v q]; [reflexivity|].
    destruct (find_tag v _) as [pr|]; reflexivity.
  - destruct (s_pending d) as [|c l]; [reflexivity|]. cbn. f_equal. unfold st_complete, s_complete.
    destruct (s_queue d) as [|v q]; [reflexivity|]. unfold st_transmit_start, s_transmit_start. cbn [s_busy s_queue s_tags s_now].
    destruct (s_busy d); [|reflexivity]. cbn [assert_ rbind]. destruct (find_tag v _); reflexivity.
Qed.

Lemma it_erase : forall d o, s_erase o (it_step fits dur d o) = i_step fits dur d o.
Proof.
  intros d [t u proto|]; cbn [it_step i_step].
  - destruct (_ && _); [|reflexivity]. cbn. f_equal. unfold it_send, i_send.
    destruct (fits (s_queue d) u); [|reflexivity]. destruct (s_busy d); [reflexivity|].
    destruct (s_queue d ++ [u]) as [|v q]; reflexivity.
  - destruct (s_pending d) as [|c l]; [reflexivity|]. cbn. f_equal. unfold it_complete, i_complete.
    destruct (s_queue d) as [|v q]; reflexivity.
Qed.

Lemma erased_step : forall d o d' ev, tserial d (s_asked [o]) ev d' ->
  airings (flat_map (s_plain o) ev) = calls ev /\ requests (flat_map (s_plain o) ev) = shown Enqueue ev.
Proof.
  intros d o d' ev T. destruct o as [t u p|]; inversion T; subst; split; reflexivity.
Qed.

Lemma st_run_erase : forall tstep step,
  (forall d o d' ev, one_pending d -> tstep d o = Some (Ok (d', ev)) -> tserial d (s_asked [o]) ev d') ->
  (forall d o, s_erase o (tstep d o) = step d o) ->
  forall ops d d' ev, one_pending d -> st_run tstep d ops = Some (Ok (d', ev)) -> exists ev', s_run step d ops = Some (Ok (d', ev')) /\
    airings ev' = calls ev /\ requests ev' = shown Enqueue ev.
Proof.
  intros tstep step Tr St. induction ops as [|o l IH]; intros d d' ev P R; cbn [st_run] in R.
  - injection R as <- <-. exists []. repeat split.
  - destruct (tstep d o) as [[[d1 e1]| | |]|] eqn:E; try discriminate.
    destruct (st_run tstep d1 l) as [[[d2 e2]| | |]|] eqn:F; try discriminate. injection R as <- <-.
    pose proof (Tr _ _ _ _ P E) as T. destruct (IH _ _ _ (tserial_pending _ _ _ _ P T) F) as (e2' & F' & A & B).
    destruct (erased_step _ _ _ _ T) as (X & Y).
    cbn [s_run]. rewrite <- St, E. cbn. rewrite F'.
    exists (flat_map (s_plain o) e1 ++ e2'). split; [reflexivity|].
    rewrite airings_app, requests_app, calls_app, shown_app, A, B, X, Y. split; reflexivity.
Qed.
End Serial.

Lemma st_run_fate : forall tstep step, (forall d o, s_erase o (tstep d o) = step d o) ->
  forall ops d, fate (st_run tstep d ops) = fate (s_run step d ops).
Proof.
  intros tstep step St. induction ops as [|o l IH]; intros d; [reflexivity|]. cbn [st_run s_run]. rewrite <- St.
  destruct (tstep d o) as [[[d1 e1]| | |]|]; cbn; try reflexivity. specialize (IH d1).
  destruct (st_run tstep d1 l) as [[[d2 e2]| | |]|], (s_run step d1 l) as [[[d3 e3]| | |]|]; cbn in *; congruence.
Qed.

(** * The ground station *)

Section Ground.
Variable fits : list Z -> Z -> bool.
Variable copies : Z -> nat.
Notation geffect := (effect (Z * gtag)).

Lemma gt_erase : forall t d o, g_erase (gt_step fits copies t d o) = g_step fits copies d o.
Proof.
  intros t d [u proto|a|p|k]; cbn [gt_step g_step]; try reflexivity.
  - cbn. f_equal. unfold gt_send, g_send. destruct (find_tag u (g_tags d)); [reflexivity|].
    destruct (fits (g_queue d) u); [|reflexivity]. destruct (g_busy d) eqn:B; [reflexivity|].
    unfold gt_transmit_start, g_transmit_start. cbn [g_busy g_queue g_tags]. cbn [negb assert_ rbind].
    destruct (g_queue d ++ [u]) as [|v q]; [reflexivity|]. destruct (find_tag v _); reflexivity.
  - unfold gt_mac_step, g_mac_step. destruct (nth_error (g_mac d) k) as [j|]; [|reflexivity].
    destruct (job_on_air j); [|reflexivity]. cbn. f_equal. unfold gt_transmit_complete, g_transmit_complete. cbn [g_queue g_tags g_remote g_power g_mac].
    destruct (g_queue d) as [|v q]; [reflexivity|]. unfold gt_transmit_start, g_transmit_start. cbn [g_busy g_queue g_tags negb assert_ rbind].
    destruct (find_tag v _); reflexivity.
Qed.

Lemma gt_run_erase : forall ops d, g_erase (gt_run fits copies d ops) = g_run fits copies d (map snd ops).
Proof.
  induction ops as [|[t o] l IH]; intros d; [reflexivity|]. cbn [gt_run g_run map snd]. rewrite <- (gt_erase t).
  destruct (gt_step fits copies t d o) as [[[d1 e1]| | |]|]; cbn; try reflexivity. rewrite <- IH.
  destruct (gt_run fits copies d1 l) as [[[d2 e2]| | |]|]; cbn; try reflexivity. rewrite flat_map_app. reflexivity.
Qed.

Inductive tground (d : gdev) (t : Z) : list (Z * Z) -> list geffect -> gdev -> Prop :=
| tg_set a p : tground d t [] [] (mkG a p (g_busy d) (g_queue d) (g_tags d) (g_mac d))
| tg_refuse u tags : tground d t [(t, u)] [Tr MacTx t u; Tr QueueDrop t u; Tr MacTxDrop t u; Ret u false]
    (mkG (g_remote d) (g_power d) (g_busy d) (g_queue d) tags (g_mac d))
| tg_wait u tags : g_busy d = true -> tground d t [(t, u)] [Tr MacTx t u; Tr Enqueue t u; Ret u true]
    (mkG (g_remote d) (g_power d) true (g_queue d ++ [u]) tags (g_mac d))
| tg_go u v q tags tag : g_busy d = false -> g_queue d ++ [u] = v :: q ->
    tground d t [(t, u)] [Tr MacTx t u; Tr Enqueue t u; Tr Dequeue t v; Ret u true]
      (mkG (g_remote d) (g_power d) true q tags (g_mac d ++ repeat (mkJob v tag false) (copies v)))
| tg_air k j : nth_error (g_mac d) k = Some j -> job_on_air j = false ->
    tground d t [] [Tr Sniffer t (job_uid j); Tr PhyTxBegin t (job_uid j); Call (job_uid j, job_tag j)]
      (mkG (g_remote d) (g_power d) (g_busy d) (g_queue d) (g_tags d) (set_nth k (mkJob (job_uid j) (job_tag j) true) (g_mac d)))
| tg_rest k j tags : nth_error (g_mac d) k = Some j -> job_on_air j = true -> g_queue d = [] ->
    tground d t [] [Tr PhyTxEnd t (job_uid j)] (mkG (g_remote d) (g_power d) false [] tags (remove_nth k (g_mac d)))
| tg_next k j v q tags tag : nth_error (g_mac d) k = Some j -> job_on_air j = true -> g_queue d = v :: q ->
    tground d t [] [Tr PhyTxEnd t (job_uid j); Tr Dequeue t v]
      (mkG (g_remote d) (g_power d) true q tags (remove_nth k (g_mac d) ++ repeat (mkJob v tag false) (copies v))).

Lemma gt_traced : forall t d o d' ev, gt_step fits copies t d o = Some (Ok (d', ev)) -> tground d t (g_asked [(t, o)]) ev d'.
Proof.
  intros t d [u proto|a|p|k] d' ev H; cbn [gt_step] in H.
  - apply some_inj in H. unfold gt_send in H. destruct (find_tag u (g_tags d)); [discriminate|].
    destruct (fits (g_queue d) u); [|injection H as <- <-; apply tg_refuse].
    destruct (g_busy d) eqn:B; [injection H as <- <-; apply tg_wait; exact B|].
    unfold gt_transmit_start in H. cbn [g_busy g_queue g_tags negb assert_ rbind] in H.
    destruct (g_queue d ++ [u]) as [|v q] eqn:Q; [discriminate|]. destruct (find_tag v _) as [tag|]; [|discriminate].
    cbn in H. injection H as <- <-. apply tg_go; [exact B|exact Q].
  - injection H as <- <-. apply tg_set.
  - injection H as <- <-. apply tg_set.
  - unfold gt_mac_step in H. destruct (nth_error (g_mac d) k) as [j|] eqn:J; [|discriminate]. destruct (job_on_air j) eqn:A.
    + apply some_inj in H. unfold gt_transmit_complete in H. cbn [g_queue g_tags g_remote g_power g_mac] in H. destruct (g_queue d) as [|v q] eqn:Q.
      * cbn in H. injection H as <- <-. apply (tg_rest _ _ k); assumption.
      * unfold gt_transmit_start in H. cbn [g_busy g_queue g_tags negb assert_ rbind] in H.
        destruct (find_tag v _) as [tag|]; [|discriminate]. cbn in H. injection H as <- <-. apply (tg_next _ _ k); assumption.
    + apply some_inj in H. injection H as <- <-. apply tg_air; assumption.
Qed.

Record gk (d : gdev) (reqs : list (Z * Z)) (tr : list geffect) : Prop := mkGK {
  gk_entry : exists vs, map fst vs = reqs /\ filter entry tr = flat_map taken_or_refused vs;
  gk_queue : map snd (shown Enqueue tr) = map snd (shown Dequeue tr) ++ g_queue d;
  gk_launch : exists ts, map snd ts = calls tr /\ filter launching tr = flat_map (fun x => gfiring (fst x) (snd x)) ts;
  gk_air : forall u, fired PhyTxBegin u tr = (fired PhyTxEnd u tr + jobs_of true u (g_mac d))%nat;
  gk_due : forall u, (fired PhyTxBegin u tr + jobs_of false u (g_mac d) = copies u * fired Dequeue u tr)%nat }.

Lemma gk_init : forall a p, gk (g_init a p) [] [].
Proof.
  intros. constructor; try reflexivity.
  - exists []. split; reflexivity.
  - exists []. split; reflexivity.
  - intros u. cbn. lia.
Qed.

Lemma jobs_app : forall on u a b, jobs_of on u (a ++ b) = (jobs_of on u a + jobs_of on u b)%nat.
Proof. intros. unfold jobs_of. rewrite filter_app, app_length. reflexivity. Qed.
Lemma jobs_repeat : forall on u v tag n, jobs_of on u (repeat (mkJob v tag false) n) = if (v =? u) && negb on then n else 0%nat.
Proof.
  intros. induction n; cbn; [destruct (_ && _); reflexivity|]. unfold jobs_of in *. cbn [repeat filter job_uid job_on_air].
  destruct (v =? u), on; cbn in *; lia.
Qed.
Lemma jobs_remove : forall on u l k j, nth_error l k = Some j ->
  (jobs_of on u (remove_nth k l) + jobs_of on u [j] = jobs_of on u l)%nat.
Proof.
  intros on u. induction l as [|x l IH]; intros [|k] j H; cbn in H; try discriminate.
  - injection H as <-. cbn [remove_nth]. change (x :: l) with ([x] ++ l). rewrite jobs_app. lia.
  - cbn [remove_nth]. change (x :: remove_nth k l) with ([x] ++ remove_nth k l). change (x :: l) with ([x] ++ l).
    rewrite !jobs_app, <- (IH _ _ H). lia.
Qed.
Lemma jobs_set : forall on u l k j j', nth_error l k = Some j ->
  (jobs_of on u (set_nth k j' l) + jobs_of on u [j] = jobs_of on u l + jobs_of on u [j'])%nat.
Proof.
  intros on u. induction l as [|x l IH]; intros [|k] j j' H; cbn in H; try discriminate.
  - injection H as <-. cbn [set_nth]. change (x :: l) with ([x] ++ l). change (j' :: l) with ([j'] ++ l). rewrite !jobs_app. lia.
  - cbn [set_nth]. change (x :: set_nth k j' l) with ([x] ++ set_nth k j' l). change (x :: l) with ([x] ++ l).
    rewrite !jobs_app. pose proof (IH _ _ j' H). lia.
Qed.
Lemma jobs_one : forall on u j, jobs_of on u [j] = if (job_uid j =? u) && Bool.eqb (job_on_air j) on then 1%nat else 0%nat.
Proof. intros. unfold jobs_of. cbn. destruct (_ && _); reflexivity. Qed.
Lemma fired_one : forall C (t u v : Z) s s' (l : list (effect C)), fired s u (Tr s' t v :: l) =
  ((if source_dec s s' then if Z.eqb v u then 1 else 0 else 0) + fired s u l)%nat.
Proof.
  intros. unfold fired, shown. cbn [flat_map]. destruct (source_dec s s'); cbn [map app snd]; [|reflexivity].
  cbn [count_occ]. destruct (Z.eq_dec v u) as [->|N]; [rewrite Z.eqb_refl|rewrite (proj2 (Z.eqb_neq v u) N)]; reflexivity.
Qed.

Lemma fired_skip : forall C s u (e : effect C) l, (forall s' t v, e <> Tr s' t v) -> fired s u (e :: l) = fired s u l.
Proof. intros C s u e l H. destruct e; try reflexivity. edestruct H; reflexivity. Qed.

Lemma tground_inv : forall d t reqs tr req ev d', gk d reqs tr -> tground d t req ev d' -> gk d' (reqs ++ req) (tr ++ ev).
Proof.
  intros d t reqs tr req ev d' [E Q L A D] T. constructor.
  - destruct E as (vs & F & G). rewrite filter_app, G. destruct T; cbn [filter entry].
    all: try (exists vs; rewrite !app_nil_r; split; [exact F|reflexivity]).
    + exists (vs ++ [(t, u, false)]). rewrite map_app, flat_map_app, F. split; reflexivity.
    + exists (vs ++ [(t, u, true)]). rewrite map_app, flat_map_app, F. split; reflexivity.
    + exists (vs ++ [(t, u, true)]). rewrite map_app, flat_map_app, F. split; reflexivity.
  - rewrite !shown_app, !map_app, Q.
    destruct T as [a p|u tags|u tags Y|u v q tags tag Y H|k j H J|k j tags H J K|k j v q tags tag H J K]; cbn; rewrite ?app_nil_r, <- ?app_assoc; try reflexivity.
    + rewrite H. reflexivity.
    + rewrite K. apply app_nil_r.
    + rewrite K. reflexivity.
  - destruct L as (ts & F & G). rewrite filter_app, calls_app, G.
    destruct T as [a p|u tags|u tags Y|u v q tags tag Y H|k j H J|k j tags H J K|k j v q tags tag H J K]; cbn [filter launching calls flat_map].
    all: try (exists ts; rewrite !app_nil_r; split; [exact F|reflexivity]).
    exists (ts ++ [(t, (job_uid j, job_tag j))]). rewrite map_app, flat_map_app, F. split; reflexivity.
  - intros w. rewrite !fired_app, A.
    destruct T as [a p|u tags|u tags Y|u v q tags tag Y H|k j H J|k j tags H J K|k j v q tags tag H J K]; cbn [g_mac].
    all: try (cbn; lia).
    + rewrite jobs_app, jobs_repeat, andb_false_r. cbn. lia.
    + pose proof (jobs_set true w _ _ _ (mkJob (job_uid j) (job_tag j) true) H) as X. rewrite !jobs_one, J in X.
      cbn [job_uid job_on_air Bool.eqb] in X. rewrite andb_true_r, andb_false_r in X.
      rewrite !fired_one, !fired_skip by discriminate. cbn [source_dec]. cbn. destruct (job_uid j =? w); lia.
    + pose proof (jobs_remove true w _ _ _ H) as X. rewrite jobs_one, J, andb_true_r in X.
      rewrite !fired_one. cbn. destruct (job_uid j =? w); lia.
    + pose proof (jobs_remove true w _ _ _ H) as X. rewrite jobs_one, J, andb_true_r in X.
      rewrite jobs_app, jobs_repeat, andb_false_r, !fired_one. cbn. destruct (job_uid j =? w); lia.
  - intros w. rewrite !fired_app. specialize (D w).
    destruct T as [a p|u tags|u tags Y|u v q tags tag Y H|k j H J|k j tags H J K|k j v q tags tag H J K]; cbn [g_mac].
    all: try (cbn; lia).
    + rewrite jobs_app, jobs_repeat, andb_true_r. rewrite !fired_one, !fired_skip by discriminate. cbn.
      destruct (Z.eqb_spec v w) as [->|N]; lia.
    + pose proof (jobs_set false w _ _ _ (mkJob (job_uid j) (job_tag j) true) H) as X. rewrite !jobs_one, J in X.
      cbn [job_uid job_on_air Bool.eqb] in X. rewrite andb_true_r, andb_false_r in X.
      rewrite !fired_one, !fired_skip by discriminate. cbn. destruct (job_uid j =? w); lia.
    + pose proof (jobs_remove false w _ _ _ H) as X. rewrite jobs_one, J, andb_false_r in X. rewrite !fired_one. cbn. lia.
    + pose proof (jobs_remove false w _ _ _ H) as X. rewrite jobs_one, J, andb_false_r in X.
      rewrite jobs_app, jobs_repeat, andb_true_r, !fired_one. cbn. destruct (Z.eqb_spec v w) as [->|N]; lia.
Qed.

Lemma g_asked_app : forall a b, g_asked (a ++ b) = g_asked a ++ g_asked b.
Proof. intros. apply flat_map_app. Qed.

Lemma gt_run_inv : forall ops d reqs tr d' ev, gk d reqs tr -> gt_run fits copies d ops = Some (Ok (d', ev)) ->
  gk d' (reqs ++ g_asked ops) (tr ++ ev).
Proof.
  induction ops as [|[t o] l IH]; intros d reqs tr d' ev K R; cbn [gt_run] in R.
  - injection R as <- <-. cbn. rewrite !app_nil_r. exact K.
  - destruct (gt_step fits copies t d o) as [[[d1 e1]| | |]|] eqn:E; try discriminate.
    destruct (gt_run fits copies d1 l) as [[[d2 e2]| | |]|] eqn:F; try discriminate. injection R as <- <-.
    change ((t, o) :: l) with ([(t, o)] ++ l). rewrite g_asked_app, !app_assoc. eapply IH; [|exact F].
    eapply tground_inv; [exact K|]. apply gt_traced. exact E.
Qed.
End Ground.

(** * Receiving *)

Lemma et_erase : forall h s o, option_map fst (et_step h s o) = e_step h s o.
Proof.
  intros h s [t src u proto tx|t a|]; cbn [et_step e_step].
  - destruct (_ && _); [|reflexivity]. destruct (sat_neqb h src (e_remote s)); reflexivity.
  - destruct (_ && _); [|reflexivity]. destruct (set_remote h (e_remote s) a); reflexivity.
  - destruct (e_pending s); reflexivity.
Qed.
Lemma et_run_erase : forall h ops s, option_map fst (et_run h s ops) = e_run h s ops.
Proof.
  intros h. induction ops as [|o l IH]; intros s; [reflexivity|]. cbn [et_run e_run]. rewrite <- et_erase.
  destruct (et_step h s o) as [[s1 e1]|]; cbn; [|reflexivity]. rewrite <- IH. destruct (et_run h s1 l) as [[s2 e2]|]; reflexivity.
Qed.


Lemma et_run_shown : forall h ops s s' ev, e_inv h s -> Forall (eop_wf h) ops -> et_run h s ops = Some (s', ev) ->
  up_of s' = up_of s ++ passed_up ev /\
  shown PhyRxBegin ev = tracked_arrivals (e_remote s) ops /\
  filter (fun e => match e with Tr PhyRxBegin _ _ => false | _ => true end) ev = flat_map reception (passed_up ev).
Proof.
  intros h. induction ops as [|o l IH]; intros s s' ev V W R; cbn [et_run] in R.
  - injection R as <- <-. cbn. rewrite app_nil_r. repeat split.
  - destruct (et_step h s o) as [[s1 e1]|] eqn:E; [|discriminate]. destruct (et_run h s1 l) as [[s2 e2]|] eqn:F; [|discriminate].
    injection R as <- <-. inversion W as [|? ? W1 W2]; subst.
    assert (E' : e_step h s o = Some s1) by (rewrite <- et_erase, E; reflexivity).
    destruct (IH _ _ _ (proj1 (e_step_inv _ _ _ _ V W1 E')) W2 F) as (A & B & G).
    unfold passed_up in *. rewrite shown_app, filter_app, !flat_map_app, B, G, A.
    destruct o as [t src u proto tx|t a|]; cbn [et_step] in E.
    + destruct (_ && _); [|discriminate]. pose proof (wf_neqb h src (e_remote s)) as N. destruct W1 as (W1 & _).
      rewrite N in E; [|exact W1|apply V]. cbn [tracked_arrivals]. destruct (sat_dec src (e_remote s)); injection E as <- <-; cbn; repeat split; reflexivity.
    + destruct (_ && _); [|discriminate]. destruct (set_remote h (e_remote s) a) as [r sg] eqn:Z. injection E as <- <-.
      unfold set_remote in Z. injection Z as <- <-. cbn. repeat split; reflexivity.
    + destruct (e_pending s) as [|c q]; [discriminate|]. injection E as <- <-. cbn. unfold up_of. cbn. rewrite map_app, <- app_assoc. repeat split; reflexivity.
Qed.

(** * A MAC that transmits each packet once *)

Record gair (d : gdev) (tr : list (effect (Z * gtag))) : Prop := mkGair {
  gr_shape : (g_busy d = false /\ g_mac d = []) \/ exists j, g_busy d = true /\ g_mac d = [j];
  gr_air : exists l x, filter on_air tr = flat_map transmission l ++ begun x /\
    option_map snd x = match g_mac d with j :: _ => if job_on_air j then Some (job_uid j) else None | [] => None end }.

Lemma gair_init : forall a p, gair (g_init a p) [].
Proof. intros. constructor; [left; split; reflexivity|]. exists [], None. split; reflexivity. Qed.

Lemma tground_air : forall d t tr req ev d', gair d tr -> tground once d t req ev d' -> gair d' (tr ++ ev).
Proof.
  intros d t tr req ev d' [S (l & x & A & X)] T.
  destruct T as [a p|u tags|u tags Y|u v q tags tag Y H|k j H J|k j tags H J K|k j v q tags tag H J K]; constructor; cbn [g_busy g_mac];
    rewrite ?filter_app, ?A; cbn [filter on_air]; rewrite ?app_nil_r.
  - exact S.
  - exists l, x. auto.
  - exact S.
  - exists l, x. auto.
  - destruct S as [(B & _)|S]; [congruence|]. destruct S as (j & _ & M). right. exists j. auto.
  - exists l, x. auto.
  - destruct S as [(_ & M)|(j & B & _)]; [|congruence]. rewrite M. right. eexists. split; reflexivity.
  - destruct S as [(_ & M)|(j & B & _)]; [|congruence]. rewrite M in *. cbn in *. exists l, x. auto.
  - destruct S as [(_ & M)|(j' & B & M)]; [rewrite M in H; destruct k; discriminate|]. rewrite M in *.
    destruct k as [|[|k]]; cbn in H; try discriminate. injection H as <-. right. eexists. split; [exact B|reflexivity].
  - destruct S as [(_ & M)|(j' & B & M)]; [rewrite M in H; destruct k; discriminate|]. rewrite M in *.
    destruct k as [|[|k]]; cbn in H; try discriminate. injection H as <-. rewrite J in X. destruct x; [discriminate|].
    exists l, (Some (t, job_uid j')). cbn. rewrite app_nil_r. auto.
  - destruct S as [(_ & M)|(j' & B & M)]; [rewrite M in H; destruct k; discriminate|]. rewrite M in *.
    destruct k as [|[|k]]; cbn in H; try discriminate. left. split; reflexivity.
  - destruct S as [(_ & M)|(j' & B & M)]; [rewrite M in H; destruct k; discriminate|]. rewrite M in *.
    destruct k as [|[|k]]; cbn in H; try discriminate. injection H as <-. rewrite J in X. destruct x as [[t0 u0]|]; [|discriminate].
    injection X as ->. exists (l ++ [(t0, t, job_uid j')]), None. cbn. rewrite flat_map_app, app_nil_r, <- app_assoc. split; reflexivity.
  - destruct S as [(_ & M)|(j' & B & M)]; [rewrite M in H; destruct k; discriminate|]. rewrite M in *.
    destruct k as [|[|k]]; cbn in H; try discriminate. right. eexists. split; reflexivity.
  - destruct S as [(_ & M)|(j' & B & M)]; [rewrite M in H; destruct k; discriminate|]. rewrite M in *.
    destruct k as [|[|k]]; cbn in H; try discriminate. injection H as <-. rewrite J in X. destruct x as [[t0 u0]|]; [|discriminate].
    injection X as ->. exists (l ++ [(t0, t, job_uid j')]), None. cbn. rewrite flat_map_app, app_nil_r, <- app_assoc. split; reflexivity.
Qed.

Lemma gt_run_air : forall fits ops d tr d' ev, gair d tr -> gt_run fits once d ops = Some (Ok (d', ev)) -> gair d' (tr ++ ev).
Proof.
  intros fits. induction ops as [|[t o] l IH]; intros d tr d' ev K R; cbn [gt_run] in R.
  - injection R as <- <-. rewrite app_nil_r. exact K.
  - destruct (gt_step fits once t d o) as [[[d1 e1]| | |]|] eqn:E; try discriminate.
    destruct (gt_run fits once d1 l) as [[[d2 e2]| | |]|] eqn:F; try discriminate. injection R as <- <-.
    rewrite app_assoc. eapply IH; [|exact F]. eapply tground_air; [exact K|]. eapply gt_traced. exact E.
Qed.

(** * Reading parts of a trace *)
Lemma shown_filter : forall C s (p : effect C -> bool) tr, (forall t u, p (Tr s t u) = true) -> shown s (filter p tr) = shown s tr.
Proof.
  intros C s p tr H. induction tr as [|e l IH]; [reflexivity|]. cbn [filter]. destruct (p e) eqn:P; cbn [shown flat_map]; fold (@shown C);
    unfold shown in *; cbn [flat_map]; rewrite IH; [reflexivity|].
  destruct e; try reflexivity. destruct (source_dec s s0) as [->|N]; [|reflexivity]. rewrite H in P. discriminate.
Qed.
