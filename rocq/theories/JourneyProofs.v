(** The three networks of a journey, each seen alone, and how they meet. *)
From Coq Require Import ZArith List Lia Bool Arith Permutation Sorted.
From Verif Require Import Base SatAddrModel SatAddrProofs ConstellationModel ConstellationSpec ConstellationProofs ConstellationProps
  IslModel GeoTagModel GeoTagSpec GeoTagNetProps DeviceModel DeviceSpec DeviceProofs RxModel RxSpec ChannelModel LinkModel LinkSpec LinkProofs
  SystemModel SystemSpec SystemProofs SystemMacs SystemProps DownSpec DownProofs DownProps IslNetSpec IslNetProps
  FaceModel FaceSpec FaceProofs FaceNetSpec FaceDownProps FaceUpProps FaceIslProps RelayModel RelaySpec RelayFaces RelayProofs RelayProps JourneyModel JourneySpec.
Import ListNotations.
Open Scope Z_scope.

Lemma some_eq : forall A (a b : A), Some a = Some b -> a = b.
Proof. congruence. Qed.

(** ** One call on a network of stations *)
Import SystemProps.
Section Up.
Context {M : Type}.
Variable w : network.
Variable rx : mac_rx M.
Variable ndn : Z.
Local Notation call := (f_call (up_y_step w rx) YSend up_do sat_up ndn).

Definition up_time (y : sys (M := M)) (c : fcall up_other) : Z :=
  match c with
  | FSend t _ _ => t | FRaw t _ _ => t | FDo (UTurn t _ _) => t | FDo (UPower t _ _) => t
  | FDo UNext => match y_queue y with [] => 0 | e :: _ => fst e end
  end.

Lemma go_air_time : forall (y : sys (M := M)) t g j y' ns,
  go_air (w_host w) (w_con w) (w_tx w) (w_rate w) (w_delay w) (w_loss w) (w_success w) (w_addr w) (w_fits w) (w_mac w) y t g j = Ok (y', ns) ->
  y_now y' = y_now y /\ Forall no_up ns.
Proof.
  intros y t g j y' ns H. unfold go_air in H. destruct (job_index j _) as [k|]; [|discriminate].
  destruct (on_ground _ _ y g (GMac k)) as [[[dv ev]| | |]|]; try discriminate.
  destruct (transmit2sat _ _ _ _ _ _ _ _ _ _ _ _ _) as [[tx outs]| | |]; cbn [rbind] in H; try discriminate. injection H as <- <-. split.
  - cbn [add_event y_now]. exact (proj1 (post_all_fields _ _)).
  - constructor; [exact Logic.I|]. unfold drops. apply Forall_forall. intros n Hn. apply in_flat_map in Hn. destruct Hn as (o & _ & Hn).
    destruct o; cbn in Hn; try contradiction. destruct Hn as [<-|[]]. exact Logic.I.
Qed.
Lemma ground_call_time : forall (y : sys (M := M)) t g o y' ns,
  ground_call (w_host w) (w_con w) (w_tx w) (w_rate w) (w_delay w) (w_loss w) (w_success w) (w_addr w) (w_fits w) (w_mac w) y t g o = Ok (y', ns) ->
  y_now y' = y_now y /\ Forall no_up ns.
Proof.
  intros y t g o y' ns H. unfold ground_call in H. destruct (on_ground _ _ y g o) as [[[dv ev]| | |]|]; cbn [rbind] in H; try discriminate.
  destruct (to_mac ev) as [u|]; [|injection H as <- <-; split; [reflexivity|repeat constructor]].
  destruct (hand_over _ _ _ _ _ _ _ _ _ _ _ t g u) as [[y2 n2]| | |] eqn:Ho; cbn [rbind] in H; try discriminate. injection H as <- <-.
  unfold hand_over in Ho. destruct (find_tag u _) as [tag|]; [|discriminate].
  assert (X : y_now y2 = y_now y /\ Forall no_up n2).
  { destruct (w_mac w) as [|slot|slot slots replicas] eqn:Em; rewrite <- Em in Ho.
    - apply go_air_time in Ho. exact Ho.
    - destruct (air_times _ _ _ _); cbn [rbind] in Ho; try discriminate. injection Ho as <- <-. split; [exact (proj1 (post_all_fields _ _))|constructor].
    - destruct (air_times _ _ _ _); cbn [rbind] in Ho; try discriminate. injection Ho as <- <-. split; [exact (proj1 (post_all_fields _ _))|constructor]. }
  destruct X as [X1 X2]. split; [exact X1|]. constructor; [exact Logic.I|exact X2].
Qed.

Definition up_op_time (y : sys (M := M)) (o : yop) : Z :=
  match o with YSend t _ _ _ => t | YRetarget t _ _ => t | YPower t _ _ => t | YNext => match y_queue y with [] => 0 | e :: _ => fst e end end.
Lemma up_step_time : forall (y : sys (M := M)) o y' ns, up_y_step w rx y o = Some (Ok (y', ns)) ->
  y_now y' = up_op_time y o /\ forall t s u src p, In (NUp t s u src p) ns -> t = up_op_time y o.
Proof.
  assert (Nu : forall ns, Forall no_up ns -> forall T t s u src p, In (NUp t s u src p) ns -> t = T).
  { intros ns F T t s u src p H. rewrite Forall_forall in F. destruct (F _ H). }
  intros y o y' ns H. unfold up_y_step in H.
  assert (CA : forall t g o, call_at (w_host w) (w_con w) (w_tx w) (w_rate w) (w_delay w) (w_loss w) (w_success w) (w_addr w) (w_fits w) (w_mac w) y t g o = Some (Ok (y', ns)) ->
    y_now y' = t /\ Forall no_up ns).
  { intros t g o0 H0. unfold call_at in H0. destruct (_ && _); [|discriminate]. apply some_eq in H0. apply ground_call_time in H0. exact H0. }
  destruct o as [t g u p|t g a|t g p|]; cbn [y_step up_op_time] in *;
    try (destruct (CA _ _ _ H) as [A B]; split; [exact A|apply Nu; exact B]).
  destruct (y_queue y) as [|[t e] q]; [discriminate|]. cbn [fst]. apply some_eq in H. destruct e as [g j|g j|s u r src proto pow|s r src proto].
  - apply go_air_time in H. destruct H as [A B]. split; [exact A|apply Nu; exact B].
  - destruct (job_index j _) as [k|]; [|discriminate]. apply ground_call_time in H. destruct H as [A B]. split; [exact A|apply Nu; exact B].
  - unfold arrive in H. injection H as <- <-. split; [reflexivity|]. intros t' s' u' src' p' [E|[]]. discriminate.
  - unfold finish in H. destruct (mac_finish rx _ r) as [[m up]| | |]; cbn [rbind] in H; try discriminate. injection H as <- <-. split; [reflexivity|].
    intros t' s' u' src' p' [E|E]; [discriminate|]. apply in_map_iff in E. destruct E as (v & E & _). congruence.
Qed.

Lemma up_call_time : forall fw c fw' out, call fw c = Some (Ok (fw', out)) ->
  y_now (fw_net fw') = up_time (fw_net fw) c /\ forall t s b, In (FGot t s b) out -> t = up_time (fw_net fw) c.
Proof.
  assert (Op : forall fw o fw' out, operate (up_y_step w rx) sat_up ndn fw o = Some (Ok (fw', out)) ->
    y_now (fw_net fw') = up_op_time (fw_net fw) o /\ forall t s b, In (FGot t s b) out -> t = up_op_time (fw_net fw) o).
  { intros fw o fw' out H. unfold operate in H. destruct (up_y_step w rx (fw_net fw) o) as [[[y ns]| | |]|] eqn:St; try discriminate. cbn [rbind] in H. apply some_eq in H.
    destruct (deliver_net _ _ _ _ _ _ _ _ H) as [En Up]. cbn [fw_net] in En. destruct (up_step_time _ _ _ _ St) as [A B]. split; [rewrite En; exact A|].
    intros t s b Hg. destruct (Up _ _ _ Hg) as (n & u & p & Hn & U). destruct n as [| | |t' s' u' src p']; try discriminate. cbn in U. injection U as -> -> -> ->. eapply B. exact Hn. }
  intros fw c fw' out H. destruct c as [t i b|t i p|u]; cbn [f_call] in H.
  - unfold do_send, create_packet, add_header in H. cbn [fw_heap] in H. rewrite find_cons, Z.eqb_refl in H. cbn [rbind] in H. apply Op in H. exact H.
  - unfold create_packet in H. apply Op in H. exact H.
  - apply Op in H. destruct u; exact H.
Qed.

Lemma up_call_some : forall fw c, up_ready (fw_net fw) (up_time (fw_net fw) c) = true -> (c = FDo UNext -> y_queue (fw_net fw) <> []) -> exists r, call fw c = Some r.
Proof.
  assert (CA : forall (y : sys (M := M)) t g o, up_ready y t = true ->
    exists r, call_at (w_host w) (w_con w) (w_tx w) (w_rate w) (w_delay w) (w_loss w) (w_success w) (w_addr w) (w_fits w) (w_mac w) y t g o = Some r).
  { intros y t g o R. unfold call_at. unfold up_ready in R. rewrite R. eauto. }
  intros fw c R Q. destruct c as [t i b|t i p|[t g a|t g p|]]; cbn [f_call up_time up_do] in *.
  - unfold do_send, create_packet, add_header. cbn [fw_heap]. rewrite find_cons, Z.eqb_refl. cbn [rbind]. unfold operate, up_y_step. cbn [set_packet fw_net y_step].
    destruct (CA _ t i (GSend (fw_next fw) ndn) R) as [r E]. rewrite E. eauto.
  - unfold create_packet, operate, up_y_step. cbn [fw_net y_step]. destruct (CA _ t i (GSend (fw_next fw) p) R) as [r E]. rewrite E. eauto.
  - unfold operate, up_y_step. cbn [y_step]. destruct (CA _ t g (GRetarget a) R) as [r E]. rewrite E. eauto.
  - unfold operate, up_y_step. cbn [y_step]. destruct (CA _ t g (GPower p) R) as [r E]. rewrite E. eauto.
  - unfold operate, up_y_step. cbn [y_step]. destruct (y_queue (fw_net fw)) as [|[t e] q]; [exfalso; apply Q; reflexivity|]. eauto.
Qed.

Lemma up_calls_snoc : forall m0 cs fw fns c, up_calls w rx m0 ndn cs = Some (Ok (fw, fns)) ->
  up_calls w rx m0 ndn (cs ++ [c]) = match call fw c with Some (Ok (fw2, out)) => Some (Ok (fw2, fns ++ out)) | z => z end.
Proof. intros m0 cs fw fns c R. unfold up_calls in *. rewrite f_calls_snoc, R. reflexivity. Qed.
End Up.

(** ** One call on a network of satellites sending to the ground *)
Section Down.
Variable d : downlink.
Variable ndn : Z.
Local Notation call := (f_call (down_l_step d) LSend down_do link_up ndn).

Definition down_time (y : lstate (F := sat_address)) (c : fcall down_other) : Z :=
  match c with
  | FSend t _ _ => t | FRaw t _ _ => t | FDo (DTurn t _ _) => t
  | FDo DNext => match l_queue y with [] => 0 | e :: _ => fst e end
  end.
Definition down_op_time (y : lstate (F := sat_address)) (o : lop (F := sat_address)) : Z :=
  match o with LSend t _ _ _ => t | LTurn t _ _ => t | LNext => match l_queue y with [] => 0 | e :: _ => fst e end end.
Lemma device_call_now : forall F step dur spread (y : lstate (F := F)) t i o y' ns, device_call step dur spread y t i o = Ok (y', ns) -> l_now y' = l_now y.
Proof. intros F step dur spread y t i o y' ns H. apply device_call_ok in H. destruct H as (e & ev & q & n & _ & _ & -> & _). reflexivity. Qed.
Lemma down_step_time : forall y o y' ns, down_l_step d y o = Some (Ok (y', ns)) -> l_now y' = down_op_time y o.
Proof.
  intros y o y' ns H. unfold down_l_step in H. destruct o as [t i u p|t r a|]; cbn [l_step down_op_time] in *.
  - destruct (ready y t); [|discriminate]. apply some_eq in H. apply device_call_now in H. exact H.
  - destruct (ready y t); [|discriminate]. injection H as <- _. reflexivity.
  - destruct (l_queue y) as [|[t e] q]; [discriminate|]. apply some_eq in H. destruct e as [i|f|f].
    + apply device_call_now in H. exact H.
    + unfold receive in H. injection H as <- _. destruct (down_hears _ _ _ _); reflexivity.
    + injection H as <- _. reflexivity.
Qed.
Lemma down_call_time : forall fw c fw' out, call fw c = Some (Ok (fw', out)) -> l_now (fw_net fw') = down_time (fw_net fw) c.
Proof.
  assert (Op : forall fw o fw' out, operate (down_l_step d) link_up ndn fw o = Some (Ok (fw', out)) -> l_now (fw_net fw') = down_op_time (fw_net fw) o).
  { intros fw o fw' out H. unfold operate in H. destruct (down_l_step d (fw_net fw) o) as [[[y ns]| | |]|] eqn:St; try discriminate. cbn [rbind] in H. apply some_eq in H.
    destruct (deliver_net _ _ _ _ _ _ _ _ H) as [En _]. cbn [fw_net] in En. rewrite En. eapply down_step_time. exact St. }
  intros fw c fw' out H. destruct c as [t i b|t i p|u]; cbn [f_call] in H.
  - unfold do_send, create_packet, add_header in H. cbn [fw_heap] in H. rewrite find_cons, Z.eqb_refl in H. cbn [rbind] in H. apply Op in H. exact H.
  - unfold create_packet in H. apply Op in H. exact H.
  - apply Op in H. destruct u; exact H.
Qed.
Lemma down_call_some : forall fw c, ready (fw_net fw) (down_time (fw_net fw) c) = true -> (c = FDo DNext -> l_queue (fw_net fw) <> []) -> exists r, call fw c = Some r.
Proof.
  intros fw c R Q. destruct c as [t i b|t i p|[t g a|]]; cbn [f_call down_time down_do] in *.
  - unfold do_send, create_packet, add_header. cbn [fw_heap]. rewrite find_cons, Z.eqb_refl. cbn [rbind]. unfold operate, down_l_step. cbn [set_packet fw_net l_step]. rewrite R. eauto.
  - unfold create_packet, operate, down_l_step. cbn [fw_net l_step]. rewrite R. eauto.
  - unfold operate, down_l_step. cbn [l_step]. rewrite R. eauto.
  - unfold operate, down_l_step. cbn [l_step]. destruct (l_queue (fw_net fw)) as [|[t e] q]; [exfalso; apply Q; reflexivity|]. eauto.
Qed.
Lemma down_calls_snoc : forall cs fw fns c, down_calls d ndn cs = Some (Ok (fw, fns)) ->
  down_calls d ndn (cs ++ [c]) = match call fw c with Some (Ok (fw2, out)) => Some (Ok (fw2, fns ++ out)) | z => z end.
Proof. intros cs fw fns c R. unfold down_calls in *. rewrite f_calls_snoc, R. reflexivity. Qed.
End Down.

(** ** One step of the satellites *)
Import IslNetSpec.
Section Isl.
Variable x : islnet.
Variable ndn : Z.
Variable devs : list isl_device.
Variable react : Z -> Z -> nat -> face -> result (list action).
Local Notation world := (fworld (lstate (F := unit))).

Lemma isl_send_now : forall (fw : world) t i b fw' out, f_call (isl_l_step x) LSend isl_do link_up ndn fw (FSend t i b) = Some (Ok (fw', out)) -> l_now (fw_net fw') = t.
Proof.
  intros fw t i b fw' out H. cbn [f_call] in H. unfold do_send, create_packet, add_header in H. cbn [fw_heap] in H. rewrite find_cons, Z.eqb_refl in H. cbn [rbind] in H.
  unfold operate, isl_l_step in H. cbn [set_packet fw_net l_step] in H. destruct (ready (fw_net fw) t); [|discriminate]. apply some_eq in H.
  destruct (device_call _ _ _ _ t i _) as [[y ns]| | |] eqn:Dc; cbn [rbind] in H; try discriminate. apply device_call_now in Dc. cbn [l_now] in Dc.
  destruct (deliver_net _ _ _ _ _ _ _ _ H) as [En _]. rewrite En. exact Dc.
Qed.
Definition all_at (t : Z) (l : list rnote) : Prop := forall t' n b, In (t', n, b) (grounded l) -> t' = t.
Lemma all_at_app : forall t a b, all_at t a -> all_at t b -> all_at t (a ++ b).
Proof. intros t a b A B t' n c H. unfold grounded in H. rewrite flat_map_app in H. apply in_app_or in H. destruct H; [eapply A|eapply B]; eassumption. Qed.
Lemma grounded_net : forall l, grounded (map RNet l) = [].
Proof. induction l as [|f l IH]; [reflexivity|exact IH]. Qed.
Lemma relay_acts_at : forall acts (fw : world) t n b fw' out, relay_acts x ndn devs fw t n b acts = Some (Ok (fw', out)) ->
  all_at t out /\ (l_now (fw_net fw') = l_now (fw_net fw) \/ l_now (fw_net fw') = t).
Proof.
  induction acts as [|a acts IH]; intros fw t n b fw' out H; cbn [relay_acts] in H.
  - injection H as <- <-. split; [intros t' n' b' []|auto].
  - set (m := match a with SendInterest (IslFace k) => _ | _ => _ end) in H.
    assert (Ok1 : forall fw1 o1, m = Some (Ok (fw1, o1)) -> all_at t o1 /\ (l_now (fw_net fw1) = l_now (fw_net fw) \/ l_now (fw_net fw1) = t)).
    { intros fw1 o1 E. unfold m in E. destruct a as [f|f|].
      - destruct f; try (injection E as <- <-; split; [intros t' n' b' Hi; cbn in Hi; try tauto; destruct Hi as [Hi|[]]; congruence|auto]).
        destruct (find_device 0 devs n k) as [i|]; [|discriminate]. unfold relay_call in E. destruct (f_call _ _ _ _ _ fw _) as [[[fw2 o2]| | |]|] eqn:Fc; cbn [obind] in E; try discriminate.
        cbn [fst snd] in E. injection E as <- <-. apply isl_send_now in Fc. split; [|auto]. intros t' n' b' Hi. change (grounded (RCall (FSend t i b) :: map RNet o2)) with (grounded (map RNet o2)) in Hi.
        rewrite grounded_net in Hi. destruct Hi.
      - injection E as <- <-. split; [intros t' n' b' []|auto].
      - injection E as <- <-. split; [intros t' n' b' []|auto]. }
    destruct m as [[[fw1 o1]| | |]|]; cbn [obind] in H; try discriminate. destruct (Ok1 _ _ eq_refl) as [A1 N1]. cbn [fst snd] in H.
    destruct (relay_acts x ndn devs fw1 t n b acts) as [[[fw2 o2]| | |]|] eqn:R; cbn [obind fst snd] in H; try discriminate. injection H as <- <-.
    destruct (IH _ _ _ _ _ _ R) as [A2 N2]. split; [apply all_at_app; assumption|]. destruct N2 as [N2|N2]; [|auto]. rewrite N2. exact N1.
Qed.
Lemma relay_in_at : forall (fw : world) t n f b fw' out, relay_in x ndn devs react fw t n f b = Some (Ok (fw', out)) ->
  all_at t out /\ (l_now (fw_net fw') = l_now (fw_net fw) \/ l_now (fw_net fw') = t).
Proof.
  intros fw t n f b fw' out H. unfold relay_in in H. destruct (react t b n f) as [acts| | |]; cbn [obind] in H; try discriminate. eapply relay_acts_at. exact H.
Qed.
Lemma relay_gots_at : forall fns (fw : world) t fw' out, (forall t' r b, In (FGot t' r b) fns -> t' = t) -> l_now (fw_net fw) = t ->
  relay_gots x ndn devs react fw fns = Some (Ok (fw', out)) -> all_at t out /\ l_now (fw_net fw') = t.
Proof.
  induction fns as [|[m|t1 r b] fns IH]; intros fw t fw' out Ht Nw H; cbn [relay_gots] in H.
  - injection H as <- <-. split; [intros t' n b []|exact Nw].
  - eapply IH; eauto. intros; eapply Ht; right; eassumption.
  - pose proof (Ht t1 r b (or_introl eq_refl)) as ->. destruct (nth_error devs r) as [e|]; [|discriminate].
    destruct (relay_in x ndn devs react fw t (isl_node e) (IslFace (isl_chan e)) b) as [[[fw1 o1]| | |]|] eqn:R1; cbn [obind fst snd] in H; try discriminate.
    destruct (relay_gots x ndn devs react fw1 fns) as [[[fw2 o2]| | |]|] eqn:R2; cbn [obind fst snd] in H; try discriminate. injection H as <- <-.
    destruct (relay_in_at _ _ _ _ _ _ _ R1) as [A1 N1]. assert (N1' : l_now (fw_net fw1) = t) by (destruct N1; congruence).
    destruct (IH _ t _ _ ltac:(intros; eapply Ht; right; eassumption) N1' R2) as [A2 N2]. split; [apply all_at_app; assumption|exact N2].
Qed.
Lemma isl_next_at : forall (fw : world) fw' out, f_call (isl_l_step x) LSend isl_do link_up ndn fw (FDo tt) = Some (Ok (fw', out)) ->
  exists t e q, l_queue (fw_net fw) = (t, e) :: q /\ l_now (fw_net fw') = t /\ forall t' r b, In (FGot t' r b) out -> t' = t.
Proof.
  intros fw fw' out H. cbn [f_call] in H. unfold operate, isl_l_step, isl_do in H. cbn [l_step] in H. destruct (l_queue (fw_net fw)) as [|[t e] q]; [discriminate|]. apply some_eq in H.
  exists t, e, q. split; [reflexivity|].
  assert (X : forall y ns, match e with LDone i => device_call (isl_step (w_tx x) (w_rate x) (w_fits x)) (fun i0 => w_tx x (w_rate x i0)) (isl_spread (w_tx x) (w_rate x) (w_delay x) (w_success x) (w_channel x)) (mkL t q (l_dev (fw_net fw)) (l_focus (fw_net fw))) t i SComplete | LArrive f => Ok (receive isl_hears (mkL t q (l_dev (fw_net fw)) (l_focus (fw_net fw))) t f)
      | LFinish f => Ok (mkL t q (l_dev (fw_net fw)) (l_focus (fw_net fw)), [KUp t f]) end = Ok (y, ns) ->
      l_now y = t /\ forall n t' r u p, In n ns -> link_up n = Some (t', r, u, p) -> t' = t).
  { intros y ns E. destruct e as [i|f|f].
    - pose proof (device_call_now _ _ _ _ _ _ _ _ _ _ E) as N. split; [exact N|]. apply device_call_ok in E. destruct E as (dv & ev & q1 & n1 & _ & Fl & _ & ->).
      intros n t' r u p [<-|Hn] U; [discriminate|].
      assert (G : forall ev q q' ns, fly (fun i => w_tx x (w_rate x i)) (isl_spread (w_tx x) (w_rate x) (w_delay x) (w_success x) (w_channel x)) t i ev q = Ok (q', ns) -> forall n : knote unit, In n ns -> link_up n = None).
      { clear. induction ev as [|e ev IH]; intros q q' ns H n Hn; cbn [fly] in H; [injection H as _ <-; destruct Hn|].
        destruct e; try (eapply IH; eassumption). destruct (isl_spread _ _ _ _ _ _ _ _ _) as [hops| | |]; cbn [rbind] in H; try discriminate.
        destruct (fly _ _ t i ev _) as [[q2 n2]| | |] eqn:F; cbn [rbind] in H; try discriminate. injection H as _ <-. apply in_app_or in Hn. destruct Hn as [Hn|Hn]; [|eapply IH; eassumption].
        unfold lost_notes in Hn. apply in_flat_map in Hn. destruct Hn as (hp & _ & Hn). destruct hp; cbn in Hn; try contradiction. destruct Hn as [<-|[]]. reflexivity. }
      rewrite (G _ _ _ _ Fl n Hn) in U. discriminate.
    - unfold receive, isl_hears in E. injection E as <- <-. split; [reflexivity|]. intros n t' r u p [<-|[]] U. discriminate.
    - injection E as <- <-. split; [reflexivity|]. intros n t' r u p [<-|[]] U. cbn in U. congruence. }
  destruct (match e with LDone i => _ | LArrive f => _ | LFinish f => _ end) as [[y ns]| | |] eqn:E; cbn [rbind] in H; try discriminate.
  destruct (X y ns eq_refl) as [Nw Tm]. destruct (deliver_net _ _ _ _ _ _ _ _ H) as [En Up]. rewrite En. split; [exact Nw|].
  intros t' r b Hg. destruct (Up _ _ _ Hg) as (n & u & p & Hn & U). eapply Tm; eassumption.
Qed.
(** When a step happens. *)
Definition r_time (y : lstate (F := unit)) (o : rop) : Z := match o with RIn t _ _ => t | RNext => match l_queue y with [] => 0 | e :: _ => fst e end end.
Lemma r_step_at : forall (fw : world) o fw' out, r_step x ndn devs react fw o = Some (Ok (fw', out)) ->
  all_at (r_time (fw_net fw) o) out /\ match o with RIn _ _ _ => True | RNext => l_now (fw_net fw') = r_time (fw_net fw) o end.
Proof.
  intros fw o fw' out H. destruct o as [t n b|]; cbn [r_step r_time] in *.
  - destruct (ready (fw_net fw) t); [|discriminate]. apply relay_in_at in H. tauto.
  - destruct (f_call _ _ _ _ _ fw (FDo tt)) as [[[fw1 o1]| | |]|] eqn:Fc; cbn [obind fst snd] in H; try discriminate.
    destruct (isl_next_at _ _ _ Fc) as (t & e & q & Q & Nw & Tm). rewrite Q. cbn [fst].
    destruct (relay_gots x ndn devs react fw1 o1) as [[[fw2 o2]| | |]|] eqn:R; cbn [obind fst snd] in H; try discriminate. injection H as <- <-.
    destruct (relay_gots_at _ _ t _ _ Tm Nw R) as [A N]. split; [|exact N].
    change (all_at t ([RCall (FDo tt)] ++ map RNet o1 ++ o2)). apply all_at_app; [intros t' n b []|]. apply all_at_app; [|exact A]. intros t' n b Hi. rewrite grounded_net in Hi. destruct Hi.
Qed.
End Isl.

(** ** The run seen in each network *)
Definition u_calls (l : list jnote) : list (fcall up_other) := flat_map (fun n => match n with JnUp c _ => [c] | _ => [] end) l.
Definition u_outs (l : list jnote) : list (fnote note) := flat_map (fun n => match n with JnUp _ out => out | _ => [] end) l.
Definition r_ops (l : list jnote) : list rop := flat_map (fun n => match n with JnIsl o _ => [o] | _ => [] end) l.
Definition r_outs (l : list jnote) : list rnote := flat_map (fun n => match n with JnIsl _ out => out | _ => [] end) l.
Definition d_calls (l : list jnote) : list (fcall down_other) := flat_map (fun n => match n with JnDown c _ => [c] | _ => [] end) l.
Definition down_sent (cs : list (fcall down_other)) : list (Z * nat * Z) := flat_map (fun c => match c with FSend t i b => [(t, i, b)] | _ => [] end) cs.
Ltac parts := unfold u_calls, u_outs, r_ops, r_outs, d_calls, d_outs; rewrite ?flat_map_app; cbn [flat_map]; rewrite ?app_nil_r.

(** What an operation is for the uplink. *)
Definition up_of (o : jop) : list (fcall up_other) :=
  match o with JSend t g b => [FSend t g b] | JTurn t g a => [FDo (UTurn t g a)] | JPower t g p => [FDo (UPower t g p)] | JUp => [FDo UNext] | JIsl => [] | JDown => [] end.
Definition up_part (ops : list jop) : list (fcall up_other) := flat_map up_of ops.
Definition turns_of (cs : list (fcall down_other)) : list (Z * nat * sat_address) := flat_map (fun c => match c with FDo (DTurn t g a) => [(t, g, a)] | _ => [] end) cs.
Definition j_turns (ops : list jop) : list (Z * nat * sat_address) := flat_map (fun o => match o with JTurn t g a => [(t, g, a)] | _ => [] end) ops.

Lemma sorted_ready : forall E (q : list (Z * E)) t, (forall x, In x q -> t <= fst x) -> forallb (fun e => t <=? fst e) q = true.
Proof. intros E q t H. apply forallb_forall. intros x Hx. apply Z.leb_le. apply H. exact Hx. Qed.

(** Notes of a step that are neither calls in the uplink nor turns or arrivals in the downlink. *)
Definition quiet (notes : list jnote) : Prop :=
  u_calls notes = [] /\ turns_of (d_calls notes) = [] /\ forall t f ok, ~ In (KArrive t f ok) (net_notes (d_outs notes)).
Lemma quiet_nil : quiet [].
Proof. split; [reflexivity|]. split; [reflexivity|]. intros t f ok []. Qed.
Lemma quiet_app : forall a b, quiet a -> quiet b -> quiet (a ++ b).
Proof.
  intros a b (A1 & A2 & A3) (B1 & B2 & B3). unfold quiet, u_calls, d_calls, d_outs, turns_of, net_notes in *. rewrite !flat_map_app, A1, A2, B1, B2. split; [reflexivity|]. split; [reflexivity|].
  intros t f ok H. apply in_app_or in H. destruct H; [eapply A3|eapply B3]; eassumption.
Qed.
Lemma fly_no_arrive : forall F dur spread t i ev q q' (ns : list (knote F)), fly dur spread t i ev q = Ok (q', ns) -> forall t' f ok, ~ In (KArrive t' f ok) ns.
Proof.
  intros F dur spread t i. induction ev as [|e ev IH]; intros q q' ns H t' f ok Hn; cbn [fly] in H; [injection H as _ <-; destruct Hn|].
  destruct e; try (eapply IH; eassumption). destruct (spread _ _ _ _) as [hops| | |]; cbn [rbind] in H; try discriminate.
  destruct (fly _ _ t i ev _) as [[q2 n2]| | |] eqn:Fl; cbn [rbind] in H; try discriminate. injection H as _ <-. apply in_app_or in Hn. destruct Hn as [Hn|Hn]; [|eapply IH; eassumption].
  unfold lost_notes in Hn. apply in_flat_map in Hn. destruct Hn as (hp & _ & Hn). destruct hp; cbn in Hn; try contradiction. destruct Hn as [Hn|[]]. discriminate.
Qed.
Lemma deliver_notes : forall S N (up : N -> option (Z * nat * Z * Z)) ndn ns (w w' : fworld S) out, deliver up ndn w ns = Ok (w', out) -> net_notes out = ns.
Proof.
  intros S N up ndn. induction ns as [|n ns IH]; intros w w' out D; cbn [deliver] in D; [injection D as _ <-; reflexivity|].
  assert (Q : forall w1 o1, deliver up ndn w1 ns = Ok o1 -> net_notes (FNote n :: snd o1) = n :: ns) by (intros w1 [w2 o2] E; cbn; f_equal; eapply IH; exact E).
  destruct (up n) as [[[[t r] u] p]|].
  - destruct (p =? ndn).
    + destruct (receive_from w u) as [[w1 b]| | |]; cbn [rbind] in D; try discriminate.
      destruct (deliver up ndn w1 ns) as [[w2 o2]| | |] eqn:D2; cbn [rbind] in D; try discriminate. injection D as _ <-. exact (Q _ _ D2).
    + destruct (deliver up ndn w ns) as [[w2 o2]| | |] eqn:D2; cbn [rbind] in D; try discriminate. injection D as _ <-. exact (Q _ _ D2).
  - destruct (deliver up ndn w ns) as [[w2 o2]| | |] eqn:D2; cbn [rbind] in D; try discriminate. injection D as _ <-. exact (Q _ _ D2).
Qed.
Lemma down_arrive : forall d ndn fw c fw' out, f_call (down_l_step d) LSend down_do link_up ndn fw c = Some (Ok (fw', out)) -> forall t f ok, In (KArrive t f ok) (net_notes out) ->
  c = FDo DNext /\ net_notes out = [KArrive t f ok] /\ due (l_queue (fw_net fw)) = Some t.
Proof.
  intros d ndn.
  assert (Dc : forall y t i o y' ns, device_call (down_step (DownSpec.v_tx d) (v_rate d) (v_fits d)) (fun i => DownSpec.v_tx d (v_rate d i)) (down_spread (DownSpec.v_tx d) (v_rate d) (DownSpec.v_delay d) (v_loss d) (v_success d) (v_addr d) (v_ground d) (v_power d)) y t i o = Ok (y', ns) ->
    forall t' f ok, ~ In (KArrive (F := sat_address) t' f ok) ns).
  { intros y t i o y' ns H t' f ok Hn. apply device_call_ok in H. destruct H as (e & ev & q & n & _ & Fl & _ & ->). destruct Hn as [Hn|Hn]; [discriminate|]. exact (fly_no_arrive _ _ _ _ _ _ _ _ _ Fl _ _ _ Hn). }
  assert (Op : forall fw o fw' out, operate (down_l_step d) link_up ndn fw o = Some (Ok (fw', out)) -> forall t f ok, In (KArrive t f ok) (net_notes out) ->
    o = LNext /\ net_notes out = [KArrive t f ok] /\ due (l_queue (fw_net fw)) = Some t).
  { intros fw o fw' out H t f ok Hi. unfold operate in H. destruct (down_l_step d (fw_net fw) o) as [[[y ns]| | |]|] eqn:St; try discriminate. cbn [rbind] in H. apply some_eq in H.
    apply deliver_notes in H. subst ns. unfold down_l_step in St. destruct o as [t1 i u p|t1 r a|]; cbn [l_step] in St.
    - destruct (ready _ t1); [|discriminate]. apply some_eq in St. exfalso. exact (Dc _ _ _ _ _ _ St _ _ _ Hi).
    - destruct (ready _ t1); [|discriminate]. injection St as _ En. rewrite <- En in Hi |- *. destruct Hi as [Hi|[]]. discriminate.
    - destruct (l_queue (fw_net fw)) as [|[t1 e] q]; [discriminate|]. apply some_eq in St. split; [reflexivity|]. destruct e as [i|f1|f1].
      + exfalso. exact (Dc _ _ _ _ _ _ St _ _ _ Hi).
      + unfold receive in St. injection St as _ En. rewrite <- En in Hi |- *. destruct Hi as [Hi|[]]. injection Hi as <- <- <-. split; reflexivity.
      + injection St as _ En. rewrite <- En in Hi |- *. destruct Hi as [Hi|[]]. discriminate. }
  intros fw c fw' out H t f ok Hi. destruct c as [t1 i b|t1 i p|u]; cbn [f_call] in H.
  - unfold do_send, create_packet, add_header in H. cbn [fw_heap] in H. rewrite find_cons, Z.eqb_refl in H. cbn [rbind] in H. destruct (Op _ _ _ _ H _ _ _ Hi) as [X _]. discriminate.
  - unfold create_packet in H. destruct (Op _ _ _ _ H _ _ _ Hi) as [X _]. discriminate.
  - destruct (Op _ _ _ _ H _ _ _ Hi) as (X & Y & Z0). destruct u; [discriminate|]. auto.
Qed.
Lemma quiet_send : forall d ndn fw t i b fw' out, f_call (down_l_step d) LSend down_do link_up ndn fw (FSend t i b) = Some (Ok (fw', out)) -> quiet [JnDown (FSend t i b) out].
Proof.
  intros d ndn fw t i b fw' out H. split; [reflexivity|]. split; [reflexivity|]. intros t' f ok Hi. unfold d_outs in Hi. cbn [flat_map] in Hi. rewrite app_nil_r in Hi.
  destruct (down_arrive _ _ _ _ _ _ H _ _ _ Hi) as [X _]. discriminate.
Qed.

(** Without losses in channels or queues, nothing is lost between satellites. *)
Lemma never_refused : forall fits dur, (forall q u, fits q u = true) -> forall ops dv dv' ev, s_run (i_step fits dur) dv ops = Some (Ok (dv', ev)) -> forall u, ~ In (SRefuse u) ev.
Proof.
  intros fits dur Ft. assert (Ts : forall dv u p dv' ev, i_transmit_start dur dv u p = Ok (dv', ev) -> forall u, ~ In (SRefuse u) ev).
  { intros dv u p dv' ev H v Hi. unfold i_transmit_start in H. destruct (negb (s_busy dv)); cbn in H; [|discriminate]. injection H as _ <-. destruct Hi as [Hi|[]]. discriminate. }
  assert (St : forall dv o dv' ev, i_step fits dur dv o = Some (Ok (dv', ev)) -> forall u, ~ In (SRefuse u) ev).
  { intros dv o dv' ev H v Hi. destruct o as [t u p|]; cbn [i_step] in H.
    - destruct (_ && _); [|discriminate]. apply some_eq in H. unfold i_send in H. rewrite Ft in H. destruct (s_busy dv).
      + injection H as _ <-. destruct Hi as [Hi|[]]. discriminate.
      + destruct (s_queue dv ++ [u]) as [|u' q]; [injection H as _ <-; destruct Hi as [Hi|[]]; discriminate|].
        destruct (i_transmit_start dur _ u' (u16 p)) as [[d2 e2]| | |] eqn:T; cbn [rbind] in H; try discriminate. injection H as _ <-. destruct Hi as [Hi|Hi]; [discriminate|]. exact (Ts _ _ _ _ _ T _ Hi).
    - destruct (s_pending dv) as [|c l]; [discriminate|]. apply some_eq in H. unfold i_complete in H. destruct (s_queue dv); [injection H as _ <-; destruct Hi|]. exact (Ts _ _ _ _ _ H _ Hi). }
  induction ops as [|o ops IH]; intros dv dv' ev R u Hi; cbn [s_run] in R; [injection R as _ <-; destruct Hi|].
  destruct (i_step fits dur dv o) as [[[d1 e1]| | |]|] eqn:S1; try discriminate. destruct (s_run (i_step fits dur) d1 ops) as [[[d2 e2]| | |]|] eqn:R2; try discriminate. injection R as _ <-.
  apply in_app_or in Hi. destruct Hi as [Hi|Hi]; [exact (St _ _ _ _ S1 _ Hi)|exact (IH _ _ _ R2 _ Hi)].
Qed.
Lemma nothing_lost : forall s ops fw rns, in_service s -> from_ground s ops -> g_relay s ops = Some (Ok (fw, rns)) ->
  (forall t u i j, g_success s t u i j = true) -> (forall i q u, g_fits s i q u = true) -> lost (fw_heap fw) rns = [].
Proof.
  intros s ops fw rns V F R Su Ft. destruct (g_inv s V ops _ F R) as (fw' & rns' & Eq & I). injection Eq as <- <-. pose proof (g_linked s V) as Ln.
  pose proof (ri_core _ _ _ _ _ _ _ _ _ I) as C.
  destruct (isl_faces (g_net s) (g_ndn s) _ _ Ln (v_ndn s V) (only_one_kind _ _ (c_ndn _ _ _ _ _ _ _ _ _ C)) (c_run _ _ _ _ _ _ _ _ _ C)) as (fw' & fns' & ops' & tab & Eq & Fi). injection Eq as <- <-.
  pose proof (fi_run _ _ _ _ _ _ _ _ _ _ _ Fi) as Rn. rewrite isl_run_n in Rn. destruct (isl_network_conserves _ _ _ _ Ln Rn) as (_ & _ & Dv & Dr & _). rewrite lost_split.
  assert (Nd : dropped (net_notes (r_fns rns)) = []).
  { rewrite Dr. clear - Su. induction (sendings (net_notes (r_fns rns))) as [|z l IH]; [reflexivity|]. cbn [filter]. unfold w_reaches at 1. cbn [g_net installed_net w_success]. rewrite Su. exact IH. }
  assert (Nr : forall n, In n (net_notes (r_fns rns)) -> lost_in (fw_heap fw) n = []).
  { intros n Hn. destruct n as [t i o ev|t i u|t f ok|t r b|t f]; cbn [lost_in]; try reflexivity.
    - assert (Hev : forall u, ~ In (SRefuse u) ev).
      { intros u Hu. apply (never_refused _ _ (Ft i) _ _ _ _ (Dv i) u). apply in_flat_map. exists (KDev t i o ev). split; [exact Hn|]. rewrite Nat.eqb_refl. exact Hu. }
      clear - Hev. induction ev as [|e ev IH]; [reflexivity|]. cbn [flat_map]. rewrite IH by (intros u Hu; apply (Hev u); right; exact Hu). destruct e; try reflexivity. exfalso. eapply Hev. left. reflexivity.
    - exfalso. assert (H : In (t, i, u) (dropped (net_notes (r_fns rns)))) by (apply in_flat_map; exists (KDrop t i u); split; [exact Hn|left; reflexivity]). rewrite Nd in H. destruct H. }
  clear - Nr. induction (net_notes (r_fns rns)) as [|n l IH]; [reflexivity|]. cbn [flat_map]. rewrite (Nr n (or_introl eq_refl)). apply IH. intros n' H. apply Nr. right. exact H.
Qed.

Section Mission.
Context {M : Type}.
Variable m : mission.
Variable rx : mac_rx M.
Variable m0 : M.
Hypothesis Pm : prepared m.
Hypothesis Si : single rx.
Hypothesis To : rx_total rx.

Local Notation s := (m_set m).
Local Notation w := (m_up m).
Local Notation d := (m_down m).
Local Notation x := (g_net (m_set m)).
Local Notation ndn := (g_ndn (m_set m)).
Local Notation devs := (install_pairs 0 (g_links (m_set m))).
Local Notation react := (g_react (m_set m)).

Lemma m_ndn : is_u16 ndn.
Proof. exact (v_ndn _ (p_service _ Pm)). Qed.

Lemma launched_pair : forall a, In a (g_addrs s) -> exists k p i n, nth_error (g_adds s) k = Some (p, i, n) /\ nth_error (g_addrs s) k = Some a.
Proof.
  intros a Ha. destruct (p_con _ Pm) as (id & Hid & R). destruct (v_launched _ (p_service _ Pm)) as (id' & c & ids & A1 & A2 & A3 & A4 & A5 & _).
  destruct (satellite_found_at_its_address _ _ _ _ _ _ _ Hid A3 A4 R) as (Le & _). apply In_nth_error in Ha. destruct Ha as [k Hk].
  destruct (nth_error (g_adds s) k) as [[[p i] n]|] eqn:E; [eauto 6|]. apply nth_error_None in E. assert (k < length (g_addrs s))%nat by (apply nth_error_Some; congruence). lia.
Qed.
Lemma launched_found : forall k p i n a, nth_error (g_adds s) k = Some (p, i, n) -> nth_error (g_addrs s) k = Some a -> get_satellite_addr (w_host w) (w_con w) a = Ok (Some n).
Proof.
  intros k p i n a Hk Ha. destruct (p_con _ Pm) as (id & Hid & R). destruct (v_launched _ (p_service _ Pm)) as (id' & c & ids & A1 & A2 & A3 & A4 & A5 & _).
  destruct (satellite_found_at_its_address _ _ _ _ _ _ _ Hid A3 A4 R) as (_ & _ & F). rewrite (p_host _ Pm). exact (proj1 (F _ _ _ _ _ Hk Ha)).
Qed.
Lemma launched_real : forall a, In a (g_addrs s) -> wf_sat (v_host d) a.
Proof.
  intros a Ha. destruct (launched_pair a Ha) as (k & p & i & n & Hk & Hak). rewrite <- (p_daddr _ Pm _ _ _ Hk Hak). apply (p_dreal _ Pm).
Qed.
Lemma m_sane : v_sane d.
Proof.
  constructor; [exact (p_dtx _ Pm)|exact (p_ddelay _ Pm)|exact (p_dreal _ Pm)|]. intros g. rewrite (p_dstart _ Pm). apply launched_real. apply (p_start _ Pm).
Qed.

Definition up_fine (c : fcall up_other) : Prop :=
  match c with
  | FSend _ _ b => (snd (fst (g_tag s b)) < g_planes s)%nat /\ (snd (g_tag s b) < g_size s)%nat
  | FRaw _ _ _ => False
  | FDo (UTurn _ _ a) => In a (g_addrs s)
  | _ => True
  end.
Definition down_fine (c : fcall down_other) : Prop :=
  match c with FRaw _ _ _ => False | FDo (DTurn _ _ a) => In a (g_addrs s) | _ => True end.

Lemma aimed_launched : forall g cs a, Forall up_fine cs -> In a (g_addrs s) -> In (aimed a g cs) (g_addrs s).
Proof.
  intros g. induction cs as [|c cs IH]; intros a F Ha; [exact Ha|]. inversion F as [|? ? F1 F2]; subst. destruct c as [t i b|t i p|[t g' a'|t g' p|]]; cbn [aimed]; auto.
  apply IH; [exact F2|]. destruct (g' =? g)%nat; auto.
Qed.
Lemma up_fine_good : forall cs, Forall up_fine cs -> up_good w ndn cs.
Proof.
  intros cs F. split.
  - intros t i p H. rewrite Forall_forall in F. destruct (F _ H).
  - intros c1 c c2 g -> _. apply Forall_app in F. destruct F as [F _].
    destruct (launched_pair _ (aimed_launched g c1 _ F (p_start _ Pm g))) as (k & p & i & n & Hk & Ha). exists n. exact (launched_found _ _ _ _ _ Hk Ha).
Qed.
Lemma down_fine_good : forall cs, Forall down_fine cs -> down_good d ndn cs.
Proof.
  intros cs F. rewrite Forall_forall in F. split.
  - intros t i p H. destruct (F _ H).
  - intros t g a H. apply launched_real. exact (F _ H).
Qed.

(** Everything at time [T]; [pu] was got by satellites but not taken on, [pg] was sent to the ground by strategies but not by devices. *)
Record j_inv (jns : list jnote) (st : jworld) (pu pg : list (Z * nat * Z)) (T : Z) : Prop := mkJInv {
  ji_up : up_calls w rx m0 ndn (u_calls jns) = Some (Ok (j_up st, u_outs jns));
  ji_isl : g_relay s (r_ops jns) = Some (Ok (j_isl st, r_outs jns));
  ji_down : down_calls d ndn (d_calls jns) = Some (Ok (j_down st, d_outs jns));
  ji_uf : Forall up_fine (u_calls jns);
  ji_df : Forall down_fine (d_calls jns);
  ji_mid : came (r_ops jns) ++ pu = gots (u_outs jns);
  ji_gr : down_sent (d_calls jns) ++ pg = grounded (r_outs jns);
  ji_clock : all_ready st T = true }.

Lemma all_ready_parts : forall (st : jworld (M := M)) T, all_ready st T = true <-> up_ready (fw_net (j_up st)) T = true /\ ready (fw_net (j_isl st)) T = true /\ ready (fw_net (j_down st)) T = true.
Proof. intros st T. unfold all_ready. rewrite !andb_true_iff. tauto. Qed.

Lemma up_state : forall cs fw fns, Forall up_fine cs -> up_calls w rx m0 ndn cs = Some (Ok (fw, fns)) ->
  StronglySorted by_time (y_queue (fw_net fw)) /\ Forall (fun e => y_now (fw_net fw) <= fst e) (y_queue (fw_net fw)).
Proof.
  intros cs fw fns F R. destruct (up_faces w rx m0 ndn (p_proper _ Pm) (p_slots _ Pm) Si To cs _ (up_fine_good _ F) R) as (fw' & fns' & ops & tab & Eq & I). injection Eq as <- <-.
  pose proof (fi_run _ _ _ _ _ _ _ _ _ _ _ I) as Rn. rewrite up_run_n in Rn. destruct (p_proper _ Pm) as (P1 & P2 & P3 & P4).
  pose proof (y_run_inv _ _ _ _ _ _ _ _ _ _ _ _ _ _ P1 P2 P3 _ _ _ Rn) as Y. destruct Y as [_ _ _ Y4 Y5 _ _ _ _ _ _ _]. split; assumption.
Qed.

Lemma down_state : forall cs fw fns, Forall down_fine cs -> down_calls d ndn cs = Some (Ok (fw, fns)) ->
  StronglySorted sooner (l_queue (fw_net fw)) /\ Forall (fun e => l_now (fw_net fw) <= fst e) (l_queue (fw_net fw)) /\
  (forall g, l_focus (fw_net fw) g = focus (v_a0 d g) g (net_notes fns)).
Proof.
  intros cs fw fns F R. destruct (down_faces d ndn cs _ m_sane m_ndn (down_fine_good _ F) R) as (fw' & fns' & ops & tab & Eq & I). injection Eq as <- <-.
  pose proof (fi_run _ _ _ _ _ _ _ _ _ _ _ I) as Rn. rewrite down_run_n in Rn. pose proof (down_run_inv d m_sane _ _ _ Rn) as Y.
  split; [exact (li_sorted _ _ _ _ _ _ _ Y)|]. split; [exact (li_future _ _ _ _ _ _ _ Y)|exact (li_focus _ _ _ _ _ _ _ Y)].
Qed.
Lemma isl_state : forall ops fw rns, from_ground s ops -> g_relay s ops = Some (Ok (fw, rns)) ->
  StronglySorted sooner (l_queue (fw_net fw)) /\ Forall (fun e => l_now (fw_net fw) <= fst e) (l_queue (fw_net fw)).
Proof.
  intros ops fw rns F R. destruct (g_inv s (p_service _ Pm) ops _ F R) as (fw' & rns' & Eq & I). injection Eq as <- <-.
  pose proof (ri_core _ _ _ _ _ _ _ _ _ I) as C. pose proof (net_inv x ndn (g_linked s (p_service _ Pm)) m_ndn _ _ _ (c_ndn _ _ _ _ _ _ _ _ _ C) (c_run _ _ _ _ _ _ _ _ _ C)) as Y.
  split; [exact (li_sorted _ _ _ _ _ _ _ Y)|exact (li_future _ _ _ _ _ _ _ Y)].
Qed.

(** What satellites get comes from the ground in the sense of the relays. *)
Lemma up_from_ground : forall cs fw fns, Forall up_fine cs -> up_calls w rx m0 ndn cs = Some (Ok (fw, fns)) -> forall t n b, In (t, n, b) (gots fns) ->
  In n (map dev_of (g_adds s)) /\ (snd (fst (g_tag s b)) < g_planes s)%nat /\ (snd (g_tag s b) < g_size s)%nat.
Proof.
  intros cs fw fns F R t n b H. destruct (up_got w rx m0 ndn (p_proper _ Pm) (p_slots _ Pm) Si To cs _ (up_fine_good _ F) R) as (fw' & fns' & Eq & G). injection Eq as <- <-.
  assert (Hg : In (FGot t n b) fns).
  { unfold gots in H. apply in_flat_map in H. destruct H as (f & Hf & H). destruct f as [f|t' n' b']; [destruct H|]. destruct H as [[= -> -> ->]|[]]. exact Hf. }
  destruct (G _ _ _ Hg) as (c1 & t0 & g & c2 & -> & _ & Fo). apply Forall_app in F. destruct F as [F1 F2]. inversion F2 as [|? ? Fs _]; subst.
  split; [|exact Fs]. destruct (launched_pair _ (aimed_launched g c1 _ F1 (p_start _ Pm g))) as (k & p & i & n' & Hk & Ha). rewrite (launched_found _ _ _ _ _ Hk Ha) in Fo. injection Fo as <-.
  apply in_map_iff. exists (p, i, n'). split; [reflexivity|]. eapply nth_error_In. exact Hk.
Qed.
Lemma inv_from_ground : forall jns st pu pg T, j_inv jns st pu pg T -> from_ground s (r_ops jns).
Proof.
  intros jns st pu pg T I t n b H. eapply up_from_ground; [exact (ji_uf _ _ _ _ _ I)|exact (ji_up _ _ _ _ _ I)|]. rewrite <- (ji_mid _ _ _ _ _ I).
  apply in_or_app. left. unfold came. apply in_flat_map. eexists. split; [exact H|]. left. reflexivity.
Qed.

Lemma down_sent_app : forall a b, down_sent (a ++ b) = down_sent a ++ down_sent b.
Proof. intros. apply flat_map_app. Qed.

Lemma obind_ok : forall A B (a : A) (k : A -> option (result B)), obind (Some (Ok a)) k = k a.
Proof. reflexivity. Qed.

(** A call in the downlink. *)
Lemma step_down : forall jns st pu pg pg' T c, j_inv jns st pu pg T -> down_time (fw_net (j_down st)) c = T -> (c = FDo DNext -> l_queue (fw_net (j_down st)) <> []) ->
  down_fine c -> down_sent [c] ++ pg' = pg ->
  exists st2 out, call_down d ndn st c = Some (Ok (st2, [JnDown c out])) /\ j_inv (jns ++ [JnDown c out]) st2 pu pg' T /\ j_up st2 = j_up st /\ j_isl st2 = j_isl st /\
    f_call (down_l_step d) LSend down_do link_up ndn (j_down st) c = Some (Ok (j_down st2, out)).
Proof.
  intros jns st pu pg pg' T c I Ht Hq Fi Eg. pose proof (proj1 (all_ready_parts _ _) (ji_clock _ _ _ _ _ I)) as (R1 & R2 & R3).
  destruct (down_call_some d ndn (j_down st) c ltac:(rewrite Ht; exact R3) Hq) as [r Fc].
  pose proof (down_calls_snoc d ndn _ _ _ c (ji_down _ _ _ _ _ I)) as Sn. rewrite Fc in Sn.
  assert (F2 : Forall down_fine (d_calls jns ++ [c])) by (apply Forall_app; split; [exact (ji_df _ _ _ _ _ I)|repeat constructor; exact Fi]).
  assert (Ok1 : exists fw2 out, r = Ok (fw2, out)).
  { destruct r as [[fw2 out]| | |]; eauto; exfalso; destruct (down_faces d ndn _ _ m_sane m_ndn (down_fine_good _ F2) Sn) as (? & ? & ? & ? & X & _); discriminate. }
  destruct Ok1 as (fw2 & out & ->). unfold call_down. rewrite Fc. cbn [obind fst snd]. exists (mkJ (j_up st) (j_isl st) fw2), out. split; [reflexivity|]. split; [|split; [|split]; reflexivity].
  destruct (down_state _ _ _ F2 Sn) as (_ & Fu & _). pose proof (down_call_time d ndn _ _ _ _ Fc) as Nw. rewrite Ht in Nw.
  constructor; parts; cbn [j_up j_isl j_down].
  - exact (ji_up _ _ _ _ _ I).
  - exact (ji_isl _ _ _ _ _ I).
  - exact Sn.
  - exact (ji_uf _ _ _ _ _ I).
  - exact F2.
  - exact (ji_mid _ _ _ _ _ I).
  - fold (d_calls jns). rewrite down_sent_app, <- app_assoc, Eg. exact (ji_gr _ _ _ _ _ I).
  - apply all_ready_parts. cbn [j_up j_isl j_down]. split; [exact R1|]. split; [exact R2|]. unfold ready. rewrite Nw, Z.leb_refl. apply sorted_ready. intros e He. rewrite Forall_forall in Fu.
    rewrite <- Nw. apply Fu. exact He.
Qed.

Lemma down_all : forall rns jns st pu T, j_inv jns st pu (grounded rns) T -> all_at T rns ->
  exists st2 notes, go_down d ndn st rns = Some (Ok (st2, notes)) /\ j_inv (jns ++ notes) st2 pu [] T /\ j_up st2 = j_up st /\ j_isl st2 = j_isl st /\ quiet notes.
Proof.
  induction rns as [|r rns IH]; intros jns st pu T I At.
  - exists st, []. split; [reflexivity|]. rewrite app_nil_r. split; [exact I|]. split; [reflexivity|]. split; [reflexivity|apply quiet_nil].
  - assert (At2 : all_at T rns) by (intros t n b H; apply (At t n b); change (r :: rns) with ([r] ++ rns); unfold grounded; rewrite flat_map_app; apply in_or_app; right; exact H).
    destruct r as [c|f|t n b|t n b|t n b]; cbn [go_down]; try (apply IH; assumption).
    pose proof (At t n b (or_introl eq_refl)) as ->.
    destruct (step_down jns st pu _ (grounded rns) T (FSend T n b) I eq_refl ltac:(discriminate) Logic.I eq_refl) as (st1 & out & E1 & I1 & U1 & S1 & C1).
    destruct (IH _ _ _ _ I1 At2) as (st2 & notes & E2 & I2 & U2 & S2 & N2). unfold then_. rewrite E1. cbn [obind fst snd]. rewrite E2. cbn [obind fst snd].
    exists st2, ([JnDown (FSend T n b) out] ++ notes). split; [reflexivity|]. rewrite app_assoc. split; [exact I2|]. rewrite U2, S2. split; [exact U1|]. split; [exact S1|]. apply quiet_app; [|exact N2].
    eapply quiet_send. exact C1.
Qed.

(** A step of the satellites. *)
Lemma step_isl : forall jns st pu pu' T o, j_inv jns st pu [] T -> r_time (fw_net (j_isl st)) o = T -> (o = RNext -> l_queue (fw_net (j_isl st)) <> []) ->
  came [o] ++ pu' = pu ->
  exists st2 notes rout, call_isl x d ndn devs react st o = Some (Ok (st2, JnIsl o rout :: notes)) /\ j_inv (jns ++ JnIsl o rout :: notes) st2 pu' [] T /\ j_up st2 = j_up st /\
    r_step x ndn devs react (j_isl st) o = Some (Ok (j_isl st2, rout)) /\ quiet notes.
Proof.
  intros jns st pu pu' T o I Ht Hq Ec. pose proof (proj1 (all_ready_parts _ _) (ji_clock _ _ _ _ _ I)) as (R1 & R2 & R3).
  assert (F2 : from_ground s (r_ops jns ++ [o])).
  { intros t n b H. apply in_app_or in H. destruct H as [H|[->|[]]]; [exact (inv_from_ground _ _ _ _ _ I t n b H)|].
    eapply up_from_ground; [exact (ji_uf _ _ _ _ _ I)|exact (ji_up _ _ _ _ _ I)|]. rewrite <- (ji_mid _ _ _ _ _ I), <- Ec. apply in_or_app. right. left. reflexivity. }
  assert (St : exists fw2 rout, r_step x ndn devs react (j_isl st) o = Some (Ok (fw2, rout)) /\ g_relay s (r_ops jns ++ [o]) = Some (Ok (fw2, r_outs jns ++ rout))).
  { destruct (g_inv s (p_service _ Pm) _ _ (inv_from_ground _ _ _ _ _ I) (ji_isl _ _ _ _ _ I)) as (fw' & rns' & Eq & Ri). injection Eq as <- <-.
    assert (Some1 : exists fw2 rout, r_step x ndn devs react (j_isl st) o = Some (Ok (fw2, rout))).
    { destruct o as [t n b|].
      - cbn [r_time] in Ht. subst t. cbn [r_step]. rewrite R2.
        destruct (relay_in_ok x ndn devs react (g_linked s (p_service _ Pm)) m_ndn (g_dst s) (g_dist s) (g_may s) (g_here s (p_service _ Pm)) (g_on s (p_service _ Pm))
          _ _ _ T n GroundFace b (ri_core _ _ _ _ _ _ _ _ _ Ri) R2 (g_came s (p_service _ Pm) _ F2 T n b ltac:(apply in_or_app; right; left; reflexivity))) as (fw2 & out & E & _). eauto.
      - destruct (core_next x ndn devs react (g_linked s (p_service _ Pm)) m_ndn (g_dst s) (g_dist s) (g_may s) (g_here s (p_service _ Pm)) (g_on s (p_service _ Pm))
          _ _ _ (ri_core _ _ _ _ _ _ _ _ _ Ri) (Hq eq_refl)) as (fw2 & out & E & _). eauto. }
    destruct Some1 as (fw2 & rout & E). exists fw2, rout. split; [exact E|]. pose proof (ji_isl _ _ _ _ _ I) as Rr. unfold g_relay, relay in *.
    rewrite relay_run_app, Rr. cbn [obind fst snd r_run]. rewrite E. cbn [obind fst snd]. rewrite app_nil_r. reflexivity. }
  destruct St as (fw2 & rout & E & Rr). destruct (r_step_at x ndn devs react _ _ _ _ E) as [At Nw]. rewrite Ht in At.
  assert (I1 : j_inv (jns ++ [JnIsl o rout]) (mkJ (j_up st) fw2 (j_down st)) pu' (grounded rout) T).
  { constructor; parts; cbn [j_up j_isl j_down].
    - exact (ji_up _ _ _ _ _ I).
    - exact Rr.
    - exact (ji_down _ _ _ _ _ I).
    - exact (ji_uf _ _ _ _ _ I).
    - exact (ji_df _ _ _ _ _ I).
    - fold (r_ops jns). rewrite came_app, <- app_assoc, Ec. exact (ji_mid _ _ _ _ _ I).
    - fold (r_outs jns) (d_calls jns). unfold grounded. rewrite flat_map_app. fold (grounded (r_outs jns)) (grounded rout). rewrite <- (ji_gr _ _ _ _ _ I), app_nil_r. reflexivity.
    - apply all_ready_parts. cbn [j_up j_isl j_down]. split; [exact R1|]. split; [|exact R3].
      destruct (isl_state _ _ _ F2 Rr) as [_ Fu]. rewrite Forall_forall in Fu. destruct o as [t n b|].
      + cbn [r_time] in Ht. subst t. cbn [r_step] in E. rewrite R2 in E. destruct (g_inv s (p_service _ Pm) _ _ (inv_from_ground _ _ _ _ _ I) (ji_isl _ _ _ _ _ I)) as (fw' & rns' & Eq & Ri). injection Eq as <- <-.
        destruct (relay_in_ok x ndn devs react (g_linked s (p_service _ Pm)) m_ndn (g_dst s) (g_dist s) (g_may s) (g_here s (p_service _ Pm)) (g_on s (p_service _ Pm))
          _ _ _ T n GroundFace b (ri_core _ _ _ _ _ _ _ _ _ Ri) R2 (g_came s (p_service _ Pm) _ F2 T n b ltac:(apply in_or_app; right; left; reflexivity))) as (fw3 & out & E' & _ & R' & _).
        rewrite E in E'. injection E' as <- _. exact R'.
      + rewrite Ht in Nw. unfold ready. rewrite Nw, Z.leb_refl. apply sorted_ready. intros e He. rewrite <- Nw. apply Fu. exact He. }
  destruct (down_all rout _ _ _ _ I1 At) as (st2 & notes & E2 & I2 & U2 & S2 & N2). exists st2, notes, rout. unfold call_isl. rewrite E. cbn [obind fst snd]. rewrite E2. cbn [obind fst snd].
  split; [reflexivity|]. rewrite <- app_assoc in I2. split; [exact I2|]. split; [rewrite U2; reflexivity|]. rewrite S2. cbn [j_isl]. split; [reflexivity|exact N2].
Qed.

Lemma isl_all : forall fns jns st T, j_inv jns st (gots fns) [] T -> (forall t n b, In (FGot t n b) fns -> t = T) ->
  exists st2 notes, go_on x d ndn devs react st fns = Some (Ok (st2, notes)) /\ j_inv (jns ++ notes) st2 [] [] T /\ j_up st2 = j_up st /\ quiet notes.
Proof.
  induction fns as [|[n|t n b] fns IH]; intros jns st T I At; cbn [go_on].
  - exists st, []. split; [reflexivity|]. rewrite app_nil_r. split; [exact I|]. split; [reflexivity|apply quiet_nil].
  - apply IH; [exact I|]. intros; eapply At; right; eassumption.
  - pose proof (At t n b (or_introl eq_refl)) as ->.
    destruct (step_isl jns st _ (gots fns) T (RIn T n b) I eq_refl ltac:(discriminate) eq_refl) as (st1 & n1 & rout & E1 & I1 & U1 & _ & Q1).
    destruct (IH _ _ _ I1 ltac:(intros; eapply At; right; eassumption)) as (st2 & n2 & E2 & I2 & U2 & Q2). unfold then_. rewrite E1. cbn [obind fst snd]. rewrite E2. cbn [obind fst snd].
    exists st2, ((JnIsl (RIn T n b) rout :: n1) ++ n2). split; [reflexivity|]. rewrite app_assoc. split; [exact I2|]. split; [congruence|]. apply quiet_app; [|exact Q2]. apply (quiet_app [_]); [|exact Q1]. split; [reflexivity|]. split; [reflexivity|]. intros ? ? ? [].
Qed.

(** A call in the uplink. *)
Lemma step_up : forall jns st T c, j_inv jns st [] [] T -> up_time (fw_net (j_up st)) c = T -> (c = FDo UNext -> y_queue (fw_net (j_up st)) <> []) -> up_fine c ->
  exists st2 notes out, call_sky w rx x d ndn devs react st c = Some (Ok (st2, JnUp c out :: notes)) /\ j_inv (jns ++ JnUp c out :: notes) st2 [] [] T /\
    f_call (up_y_step w rx) YSend up_do sat_up ndn (j_up st) c = Some (Ok (j_up st2, out)) /\ quiet notes.
Proof.
  intros jns st T c I Ht Hq Fi. pose proof (proj1 (all_ready_parts _ _) (ji_clock _ _ _ _ _ I)) as (R1 & R2 & R3).
  destruct (up_call_some w rx ndn (j_up st) c ltac:(rewrite Ht; exact R1) Hq) as [r Fc].
  pose proof (up_calls_snoc w rx ndn m0 _ _ _ c (ji_up _ _ _ _ _ I)) as Sn. rewrite Fc in Sn.
  assert (F2 : Forall up_fine (u_calls jns ++ [c])) by (apply Forall_app; split; [exact (ji_uf _ _ _ _ _ I)|repeat constructor; exact Fi]).
  assert (Ok1 : exists fw2 out, r = Ok (fw2, out)).
  { destruct r as [[fw2 out]| | |]; eauto; exfalso;
      destruct (up_faces w rx m0 ndn (p_proper _ Pm) (p_slots _ Pm) Si To _ _ (up_fine_good _ F2) Sn) as (? & ? & ? & ? & X & _); discriminate. }
  destruct Ok1 as (fw2 & out & ->). destruct (up_call_time w rx ndn _ _ _ _ Fc) as [Nw Tm]. rewrite Ht in Nw, Tm. destruct (up_state _ _ _ F2 Sn) as [_ Fu]. rewrite Forall_forall in Fu.
  assert (I1 : j_inv (jns ++ [JnUp c out]) (mkJ fw2 (j_isl st) (j_down st)) (gots out) [] T).
  { constructor; parts; cbn [j_up j_isl j_down].
    - exact Sn.
    - exact (ji_isl _ _ _ _ _ I).
    - exact (ji_down _ _ _ _ _ I).
    - exact F2.
    - exact (ji_df _ _ _ _ _ I).
    - fold (r_ops jns) (u_outs jns). rewrite gots_app, <- (ji_mid _ _ _ _ _ I), app_nil_r. reflexivity.
    - pose proof (ji_gr _ _ _ _ _ I) as X. rewrite app_nil_r in X. exact X.
    - apply all_ready_parts. cbn [j_up j_isl j_down]. split; [|split; [exact R2|exact R3]]. unfold up_ready. rewrite Nw, Z.leb_refl. apply sorted_ready. intros e He. rewrite <- Nw. apply Fu. exact He. }
  destruct (isl_all out _ _ _ I1 Tm) as (st2 & notes & E2 & I2 & U2 & Q2). exists st2, notes, out. unfold call_sky, call_up. rewrite Fc. cbn [obind fst snd]. rewrite E2. cbn [obind fst snd].
  split; [reflexivity|]. rewrite <- app_assoc in I2. split; [exact I2|]. rewrite U2. split; [reflexivity|exact Q2].
Qed.

(** ** Steps and runs *)
Local Notation jstep := (j_step w rx x d ndn devs react).
Definition op_fine (o : jop) : Prop :=
  match o with
  | JSend _ _ b => (snd (fst (g_tag s b)) < g_planes s)%nat /\ (snd (g_tag s b) < g_size s)%nat
  | JTurn _ _ a => In a (g_addrs s)
  | _ => True
  end.
Lemma sensible_fine : forall ops, sensible m ops -> Forall op_fine ops.
Proof. intros ops [A B]. apply Forall_forall. intros o Ho. destruct o as [t g b|t g a|t g p| | |]; cbn; eauto. Qed.

Lemma at_time : forall jns st T t, j_inv jns st [] [] T -> all_ready st t = true -> j_inv jns st [] [] t.
Proof. intros jns st T t [A B C D E F G H] R. constructor; assumption. Qed.

Record stepped (o : jop) (st st2 : jworld) (notes : list jnote) : Prop := mkStepped {
  sp_u : u_calls notes = up_of o;
  sp_turns : turns_of (d_calls notes) = j_turns [o];
  sp_arrive : forall t f ok, In (KArrive t f ok) (net_notes (d_outs notes)) -> o = JDown /\ net_notes (d_outs notes) = [KArrive t f ok] /\ op_time st o = Some t;
  sp_up : o = JUp -> exists out, f_call (up_y_step w rx) YSend up_do sat_up ndn (j_up st) (FDo UNext) = Some (Ok (j_up st2, out));
  sp_isl : o = JIsl -> j_up st2 = j_up st /\ exists out, r_step x ndn devs react (j_isl st) RNext = Some (Ok (j_isl st2, out));
  sp_down : o = JDown -> j_up st2 = j_up st /\ j_isl st2 = j_isl st /\ exists out, f_call (down_l_step d) LSend down_do link_up ndn (j_down st) (FDo DNext) = Some (Ok (j_down st2, out)) }.

Lemma step_any : forall jns st T o t, j_inv jns st [] [] T -> op_fine o -> op_time st o = Some t -> all_ready st t = true ->
  exists st2 notes, jstep st o = Some (Ok (st2, notes)) /\ j_inv (jns ++ notes) st2 [] [] t /\ stepped o st st2 notes.
Proof.
  intros jns st T o t I Fi Ht R. apply (at_time _ _ _ t) in I; [|exact R].
  assert (Sky : forall c, up_time (fw_net (j_up st)) c = t -> (c = FDo UNext -> y_queue (fw_net (j_up st)) <> []) -> up_fine c ->
    exists st2 notes out, call_sky w rx x d ndn devs react st c = Some (Ok (st2, JnUp c out :: notes)) /\ j_inv (jns ++ JnUp c out :: notes) st2 [] [] t /\
      f_call (up_y_step w rx) YSend up_do sat_up ndn (j_up st) c = Some (Ok (j_up st2, out)) /\ u_calls (JnUp c out :: notes) = [c] /\
      turns_of (d_calls (JnUp c out :: notes)) = [] /\ forall t f ok, ~ In (KArrive t f ok) (net_notes (d_outs (JnUp c out :: notes)))).
  { intros c Tc Qc Fc. destruct (step_up jns st t c I Tc Qc Fc) as (st2 & notes & out & E & I2 & C & (Q1 & Q2 & Q3)). exists st2, notes, out.
    split; [exact E|]. split; [exact I2|]. split; [exact C|]. split; [change (JnUp c out :: notes) with ([JnUp c out] ++ notes); unfold u_calls in *; rewrite flat_map_app, Q1; reflexivity|]. split; [exact Q2|exact Q3]. }
  destruct o as [t' g b|t' g a|t' g p| | |]; cbn [j_step op_time op_fine] in *; try (injection Ht as ->); try rewrite R.
  - destruct (Sky (FSend t g b) eq_refl ltac:(discriminate) Fi) as (st2 & notes & out & E & I2 & C & U & Tn & Na). exists st2, (JnUp (FSend t g b) out :: notes).
    split; [exact E|]. split; [exact I2|]. constructor; try discriminate; auto. intros ? ? ? H. destruct (Na _ _ _ H).
  - destruct (Sky (FDo (UTurn t g a)) eq_refl ltac:(discriminate) Fi) as (st1 & n1 & out & E & I1 & C & U & Tn & Na).
    destruct (step_down _ st1 [] [] [] t (FDo (DTurn t g a)) I1 eq_refl ltac:(discriminate) Fi eq_refl) as (st2 & o2 & E2 & I2 & _ & _ & C2).
    exists st2, ((JnUp (FDo (UTurn t g a)) out :: n1) ++ [JnDown (FDo (DTurn t g a)) o2]). unfold then_. rewrite E. cbn [obind fst snd]. rewrite E2. cbn [obind fst snd]. split; [reflexivity|].
    rewrite app_assoc. split; [exact I2|]. constructor; try discriminate.
    + unfold u_calls in *. rewrite flat_map_app, U. reflexivity.
    + unfold d_calls, turns_of in *. rewrite !flat_map_app, Tn. reflexivity.
    + intros t' f ok H. unfold d_outs in H. rewrite flat_map_app in H. unfold net_notes in H. rewrite flat_map_app in H. apply in_app_or in H. destruct H as [H|H]; [destruct (Na _ _ _ H)|].
      cbn [flat_map] in H. rewrite app_nil_r in H. destruct (down_arrive _ _ _ _ _ _ C2 _ _ _ H) as [X _]. discriminate.
  - destruct (Sky (FDo (UPower t g p)) eq_refl ltac:(discriminate) Logic.I) as (st2 & notes & out & E & I2 & C & U & Tn & Na). exists st2, (JnUp (FDo (UPower t g p)) out :: notes).
    split; [exact E|]. split; [exact I2|]. constructor; try discriminate; auto. intros ? ? ? H. destruct (Na _ _ _ H).
  - unfold at_due. rewrite Ht, R.
    destruct (Sky (FDo UNext)) as (st2 & notes & out & E & I2 & C & U & Tn & Na); [cbn; destruct (y_queue (fw_net (j_up st))); cbn in Ht; congruence|intros _ Q; rewrite Q in Ht; discriminate|exact Logic.I|].
    exists st2, (JnUp (FDo UNext) out :: notes). split; [exact E|]. split; [exact I2|]. constructor; try discriminate; auto; [intros ? ? ? H; destruct (Na _ _ _ H)|]. intros _. eauto.
  - unfold at_due. rewrite Ht, R.
    destruct (step_isl jns st [] [] t RNext I) as (st2 & notes & rout & E & I2 & U & C & (Q1 & Q2 & Q3)); [cbn; destruct (l_queue (fw_net (j_isl st))); cbn in Ht; congruence|intros _ Q; rewrite Q in Ht; discriminate|reflexivity|].
    exists st2, (JnIsl RNext rout :: notes). split; [exact E|]. split; [exact I2|]. constructor; try discriminate; auto; [intros ? ? ? H; destruct (Q3 _ _ _ H)|]. intros _. eauto.
  - unfold at_due. rewrite Ht, R.
    destruct (step_down jns st [] [] [] t (FDo DNext) I) as (st2 & out & E & I2 & U & S & C); [cbn; destruct (l_queue (fw_net (j_down st))); cbn in Ht; congruence|intros _ Q; rewrite Q in Ht; discriminate|exact Logic.I|reflexivity|].
    exists st2, [JnDown (FDo DNext) out]. split; [exact E|]. split; [exact I2|]. constructor; try discriminate; auto.
    + intros t' f ok H. unfold d_outs in *. cbn [flat_map] in *. rewrite app_nil_r in *. destruct (down_arrive _ _ _ _ _ _ C _ _ _ H) as (_ & A & B). auto.
    + intros _. eauto.
Qed.

Lemma step_cannot : forall (st : jworld (M := M)) o r, jstep st o = Some r -> can_come st o.
Proof.
  intros st o r H. unfold can_come. destruct o as [t g b|t g a|t g p| | |]; cbn [j_step op_time] in *; unfold at_due in H;
    try (destruct (all_ready st t) eqn:R; [eauto|discriminate]);
    try (destruct (due _) as [t|]; [|discriminate]; destruct (all_ready st t) eqn:R; [eauto|discriminate]).
Qed.

Lemma run_app : forall o1 o2 st, j_run w rx x d ndn devs react st (o1 ++ o2) = then_ (j_run w rx x d ndn devs react st o1) (fun s1 => j_run w rx x d ndn devs react s1 o2).
Proof.
  induction o1 as [|o o1 IH]; intros o2 st; cbn [app j_run].
  - unfold then_. cbn [obind fst snd app]. destruct (j_run w rx x d ndn devs react st o2) as [[[s2 n2]| | |]|]; reflexivity.
  - unfold then_ at 1 3. destruct (jstep st o) as [[[s1 n1]| | |]|]; cbn [obind fst snd]; try reflexivity. rewrite IH. unfold then_.
    destruct (j_run w rx x d ndn devs react s1 o1) as [[[s2 n2]| | |]|]; cbn [obind fst snd]; try reflexivity.
    destruct (j_run w rx x d ndn devs react s2 o2) as [[[s3 n3]| | |]|]; cbn [obind fst snd]; try reflexivity. rewrite app_assoc. reflexivity.
Qed.
Lemma fly_app : forall o1 o2 st jns, fly_mission m rx m0 o1 = Some (Ok (st, jns)) ->
  fly_mission m rx m0 (o1 ++ o2) = obind (j_run w rx x d ndn devs react st o2) (fun z => Some (Ok (fst z, jns ++ snd z))).
Proof. intros o1 o2 st jns R. unfold fly_mission in *. rewrite run_app, R. reflexivity. Qed.
Lemma fly_before : forall o1 o2 r, fly_mission m rx m0 (o1 ++ o2) = Some r -> exists r1, fly_mission m rx m0 o1 = Some r1.
Proof. intros o1 o2 r R. unfold fly_mission in *. rewrite run_app in R. destruct (j_run _ _ _ _ _ _ _ _ o1); [eauto|discriminate]. Qed.

Lemma start_ok : j_inv [] (j_init w d m0) [] [] 0.
Proof. constructor; try reflexivity; constructor. Qed.

Record flown (ops : list jop) (st : jworld) (jns : list jnote) (T : Z) : Prop := mkFlown {
  fn_inv : j_inv jns st [] [] T;
  fn_u : u_calls jns = up_part ops;
  fn_turns : turns_of (d_calls jns) = j_turns ops }.

Lemma run_ok : forall ops r, Forall op_fine ops -> fly_mission m rx m0 ops = Some r -> exists st jns T, r = Ok (st, jns) /\ flown ops st jns T.
Proof.
  induction ops as [|o ops IH] using rev_ind; intros r F R.
  - injection R as <-. exists (j_init w d m0), [], 0. split; [reflexivity|]. constructor; [apply start_ok|reflexivity|reflexivity].
  - apply Forall_app in F. destruct F as [F1 F2]. inversion F2 as [|? ? Fo _]; subst. destruct (fly_before _ _ _ R) as [r1 R1]. destruct (IH _ F1 R1) as (st & jns & T & -> & [I U Tn]).
    rewrite (fly_app _ _ _ _ R1) in R. cbn [j_run] in R. unfold then_ in R. destruct (jstep st o) as [r2|] eqn:S; [|discriminate]. destruct (step_cannot _ _ _ S) as (t & Ht & Rd).
    destruct (step_any _ _ _ _ _ I Fo Ht Rd) as (st2 & notes & E & I2 & Sp). rewrite E in S. injection S as <-. cbn [obind fst snd] in R. rewrite app_nil_r in R. injection R as <-.
    exists st2, (jns ++ notes), t. split; [reflexivity|]. constructor; [exact I2| |].
    + unfold u_calls, up_part in *. rewrite !flat_map_app, U. f_equal. change (u_calls notes = up_part [o]). rewrite (sp_u _ _ _ _ Sp). cbn. rewrite app_nil_r. reflexivity.
    + unfold turns_of, d_calls, j_turns in *. rewrite !flat_map_app, Tn. f_equal. exact (sp_turns _ _ _ _ Sp).
Qed.

(** ** Where stations point *)
Fixpoint last_turn (a : sat_address) (g : nat) (l : list (Z * nat * sat_address)) : sat_address :=
  match l with [] => a | (_, g', b) :: r => last_turn (if (g' =? g)%nat then b else a) g r end.
Lemma points_turns : forall ops a g, points a g ops = last_turn a g (j_turns ops).
Proof. induction ops as [|o ops IH]; intros a g; [reflexivity|]. destruct o as [t g' b|t g' b|t g' p| | |]; apply IH. Qed.
Definition order_turns (l : list (order sat_address)) : list (Z * nat * sat_address) := flat_map (fun o => match o with OrderTurn t r a => [(t, r, a)] | _ => [] end) l.
Lemma focus_turns : forall (ns : list (knote sat_address)) a g, focus a g ns = last_turn a g (order_turns (obeyed ns)).
Proof.
  induction ns as [|n ns IH]; intros a g; [reflexivity|]. change (n :: ns) with ([n] ++ ns). unfold order_turns, obeyed in *. rewrite !flat_map_app.
  destruct n as [t i [t' u p|] ev|t i u|t f ok|t r b|t f]; cbn [focus app flat_map last_turn]; apply IH.
Qed.
Lemma down_focus : forall cs fw fns g, Forall down_fine cs -> down_calls d ndn cs = Some (Ok (fw, fns)) -> focus (v_a0 d g) g (net_notes fns) = last_turn (v_a0 d g) g (turns_of cs).
Proof.
  intros cs fw fns g F R. destruct (down_faces d ndn cs _ m_sane m_ndn (down_fine_good _ F) R) as (fw' & fns' & ops & tab & Eq & I). injection Eq as <- <-.
  pose proof (fi_run _ _ _ _ _ _ _ _ _ _ _ I) as Rn. rewrite down_run_n in Rn. rewrite focus_turns, (down_obeys d m_sane _ _ _ Rn). f_equal.
  pose proof (fi_elab _ _ _ _ _ _ _ _ _ _ _ I) as E. clear - E. induction E as [|cs ops tab t i b u E IH|cs ops tab t i p u E IH|cs ops tab y E IH]; [reflexivity| | |];
    unfold order_turns, ordered, turns_of in *; rewrite !flat_map_app, IH; f_equal. destruct y; reflexivity.
Qed.
Lemma flown_points : forall ops st jns T g, flown ops st jns T -> focus (v_a0 d g) g (net_notes (d_outs jns)) = points (w_a0 w g) g ops.
Proof.
  intros ops st jns T g [I _ Tn]. rewrite (down_focus _ _ _ g (ji_df _ _ _ _ _ I) (ji_down _ _ _ _ _ I)), Tn, (p_dstart _ Pm), points_turns. reflexivity.
Qed.

Lemma net_notes_d : forall a b, net_notes (d_outs (a ++ b)) = net_notes (d_outs a) ++ net_notes (d_outs b).
Proof. intros a b. unfold d_outs, net_notes. rewrite !flat_map_app. reflexivity. Qed.

Lemma app_len : forall A (a b c e : list A), a ++ b = c ++ e -> length a = length c -> a = c.
Proof. induction a as [|x a IH]; intros b [|y c] e E L; try discriminate; [reflexivity|]. injection E as -> E. f_equal. eapply IH; [exact E|]. injection L as L. exact L. Qed.
Lemma app_before : forall A (a b c : list A) y e, a ++ b = c ++ y :: e -> (length c < length a)%nat -> exists e', a = c ++ y :: e'.
Proof.
  induction a as [|x a IH]; intros b c y e E L; [cbn in L; lia|]. destruct c as [|z c]; cbn in *; injection E as -> E; [eauto|]. destruct (IH b c y e E ltac:(lia)) as [e' ->]. eauto.
Qed.

(** A frame arrives in an event of the downlink; the station then points where it was last turned. *)
Lemma arrival : forall ops st jns, Forall op_fine ops -> fly_mission m rx m0 ops = Some (Ok (st, jns)) ->
  forall n1 ta f ok n2, net_notes (d_outs jns) = n1 ++ KArrive ta f ok :: n2 ->
  exists o1 o2 st1 jns1, ops = o1 ++ JDown :: o2 /\ fly_mission m rx m0 o1 = Some (Ok (st1, jns1)) /\ op_time st1 JDown = Some ta /\ forall g, focus (v_a0 d g) g n1 = points (w_a0 w g) g o1.
Proof.
  induction ops as [|o ops IH] using rev_ind; intros st jns F R n1 ta f ok n2 En.
  - injection R as <- <-. destruct n1; discriminate.
  - apply Forall_app in F. destruct F as [F1 F2]. inversion F2 as [|? ? Fo _]; subst. destruct (fly_before _ _ _ R) as [r1 R1]. destruct (run_ok _ _ F1 R1) as (st1 & j1 & T & -> & Fl).
    rewrite (fly_app _ _ _ _ R1) in R. cbn [j_run] in R. unfold then_ in R. destruct (jstep st1 o) as [r2|] eqn:S; [|discriminate]. destruct (step_cannot _ _ _ S) as (t & Ht & Rd).
    destruct (step_any _ _ _ _ _ (fn_inv _ _ _ _ Fl) Fo Ht Rd) as (st2 & notes & E & I2 & Sp). rewrite E in S. injection S as <-. cbn [obind fst snd] in R. rewrite app_nil_r in R. injection R as <- <-.
    rewrite net_notes_d in En. destruct (le_lt_dec (length (net_notes (d_outs j1))) (length n1)) as [Le|Lt].
    + assert (Hi : In (KArrive ta f ok) (net_notes (d_outs notes))).
      { assert (E2 : nth_error (net_notes (d_outs j1) ++ net_notes (d_outs notes)) (length n1) = Some (KArrive ta f ok)) by (rewrite En, nth_error_app2, Nat.sub_diag by lia; reflexivity).
        rewrite nth_error_app2 in E2 by exact Le. eapply nth_error_In. exact E2. }
      destruct (sp_arrive _ _ _ _ Sp _ _ _ Hi) as (-> & Nn & Td). exists ops, [], st1, j1. split; [reflexivity|]. split; [exact R1|]. split; [exact Td|].
      rewrite Nn in En. assert (E1 : n1 = net_notes (d_outs j1)).
      { assert (L : length n1 = length (net_notes (d_outs j1))) by (apply (f_equal (@length _)) in En; rewrite !app_length in En; cbn [length] in En; lia).
        symmetry. exact (app_len _ _ _ _ _ En (eq_sym L)). }
      intros g. rewrite E1. exact (flown_points _ _ _ _ g Fl).
    + assert (E1 : exists n2', net_notes (d_outs j1) = n1 ++ KArrive ta f ok :: n2').
      { exact (app_before _ _ _ _ _ _ En Lt). }
      destruct E1 as [n2' E1]. destruct (IH _ _ F1 R1 _ _ _ _ _ E1) as (o1 & o2 & st0 & j0 & -> & A & B & C). exists o1, (o2 ++ [o]), st0, j0. rewrite <- app_assoc. auto.
Qed.

(** What the uplink was told, and what the stations were told. *)
Lemma up_part_split : forall ops c1 t g b c2, up_part ops = c1 ++ FSend t g b :: c2 -> exists o1 o2, ops = o1 ++ JSend t g b :: o2 /\ up_part o1 = c1.
Proof.
  induction ops as [|o ops IH]; intros c1 t g b c2 E; [destruct c1; discriminate|]. unfold up_part in E. cbn [flat_map] in E. fold (up_part ops) in E.
  assert (Later : forall c1', up_of o ++ up_part ops = up_of o ++ c1' ++ FSend t g b :: c2 -> exists o1 o2, o :: ops = o1 ++ JSend t g b :: o2 /\ up_part o1 = up_of o ++ c1').
  { intros c1' E'. apply app_inv_head in E'. destruct (IH _ _ _ _ _ E') as (o1 & o2 & -> & A). exists (o :: o1), o2. split; [reflexivity|]. unfold up_part in *. cbn [flat_map]. rewrite A. reflexivity. }
  destruct o as [t' g' b'|t' g' a|t' g' p| | |]; cbn [up_of app] in *;
    try (destruct c1 as [|y c1]; cbn [app] in E; [try discriminate|injection E as <- E; exact (Later c1 (f_equal (cons _) E))]); try exact (Later c1 E).
  injection E as -> -> -> _. exists [], ops. split; reflexivity.
Qed.
Lemma aimed_points : forall g ops a, aimed a g (up_part ops) = points a g ops.
Proof. intros g. induction ops as [|o ops IH]; intros a; [reflexivity|]. unfold up_part. cbn [flat_map]. fold (up_part ops). destruct o as [t' g' b'|t' g' b'|t' g' p| | |]; cbn [up_of app aimed points]; apply IH. Qed.
Lemma up_part_sent : forall ops, blocks_sent (up_part ops) = map snd (j_sent ops).
Proof.
  induction ops as [|o ops IH]; [reflexivity|]. unfold up_part, j_sent, blocks_sent in *. cbn [flat_map]. rewrite flat_map_app, map_app, IH. f_equal. destruct o; reflexivity.
Qed.

(** ** Coming to rest *)
Lemma n_run_app : forall S O N (step : S -> O -> option (result (S * list N))) a b st st1 n1, n_run step st a = Some (Ok (st1, n1)) ->
  n_run step st (a ++ b) = match n_run step st1 b with Some (Ok (s2, n2)) => Some (Ok (s2, n1 ++ n2)) | z => z end.
Proof.
  intros S O N step. induction a as [|o a IH]; intros b st st1 n1 R; cbn [n_run app] in *.
  - injection R as <- <-. destruct (n_run step st b) as [[[s2 n2]| | |]|]; reflexivity.
  - destruct (step st o) as [[[s1 m1]| | |]|]; try discriminate. destruct (n_run step s1 a) as [[[s2 m2]| | |]|] eqn:R2; try discriminate. injection R as <- <-.
    rewrite (IH b _ _ _ R2). destruct (n_run step s2 b) as [[[s3 m3]| | |]|]; try reflexivity. rewrite app_assoc. reflexivity.
Qed.

Definition up_left (fw : fworld (sys (M := M))) (k : nat) : Prop := exists y ns, n_run (up_y_step w rx) (fw_net fw) (repeat YNext k) = Some (Ok (y, ns)) /\ y_queue y = [].
Definition isl_left (fw : fworld (lstate (F := unit))) (k : nat) : Prop := exists fw' rns, r_run x ndn devs react fw (repeat RNext k) = Some (Ok (fw', rns)) /\ l_queue (fw_net fw') = [].
Definition down_left (fw : fworld (lstate (F := sat_address))) (k : nat) : Prop := exists y ns, n_run (down_l_step d) (fw_net fw) (repeat LNext k) = Some (Ok (y, ns)) /\ l_queue y = [].

Lemma up_some_left : forall jns st pu pg T, j_inv jns st pu pg T -> exists k, up_left (j_up st) k.
Proof.
  intros jns st pu pg T I. pose proof (up_fine_good _ (ji_uf _ _ _ _ _ I)) as G.
  destruct (up_faces w rx m0 ndn (p_proper _ Pm) (p_slots _ Pm) Si To _ _ G (ji_up _ _ _ _ _ I)) as (fw' & fns' & ops & tab & Eq & Fi). injection Eq as <- <-.
  pose proof (fi_run _ _ _ _ _ _ _ _ _ _ _ Fi) as Rn. pose proof Rn as Rn'. rewrite up_run_n in Rn'.
  assert (Nd : NoDup (sent_uids ops)) by (rewrite (up_uids _ _ _ _ (fi_elab _ _ _ _ _ _ _ _ _ _ _ Fi)); exact (fi_once _ _ _ _ _ _ _ _ _ _ _ Fi)).
  destruct (rest M w rx m0 ops _ (p_proper _ Pm) (p_slots _ Pm) (total_alive _ _ _ _ To) Nd (elab_well_aimed _ _ _ _ _ (fi_elab _ _ _ _ _ _ _ _ _ _ _ Fi) (proj2 G)) Rn') as [_ (k & y & ns & R & Q & _)].
  exists k. rewrite <- up_run_n in R. rewrite (n_run_app _ _ _ _ _ _ _ _ _ Rn) in R. unfold up_left. destruct (n_run (up_y_step w rx) (fw_net (j_up st)) (repeat YNext k)) as [[[y' n']| | |]|]; try discriminate.
  injection R as -> _. eauto.
Qed.
Lemma down_some_left : forall jns st pu pg T, j_inv jns st pu pg T -> exists k, down_left (j_down st) k.
Proof.
  intros jns st pu pg T I. pose proof (down_fine_good _ (ji_df _ _ _ _ _ I)) as G.
  destruct (down_faces d ndn _ _ m_sane m_ndn G (ji_down _ _ _ _ _ I)) as (fw' & fns' & ops & tab & Eq & Fi). injection Eq as <- <-.
  pose proof (fi_run _ _ _ _ _ _ _ _ _ _ _ Fi) as Rn. pose proof Rn as Rn'. rewrite down_run_n in Rn'.
  destruct (downlink_network_rests d ops _ _ m_sane Rn') as (k & y & ns & R & Q).
  exists k. rewrite <- down_run_n in R. rewrite (n_run_app _ _ _ _ _ _ _ _ _ Rn) in R. unfold down_left. destruct (n_run (down_l_step d) (fw_net (j_down st)) (repeat LNext k)) as [[[y' n']| | |]|]; try discriminate.
  injection R as -> _. eauto.
Qed.
Lemma isl_some_left : forall jns st pu pg T, j_inv jns st pu pg T -> exists k, isl_left (j_isl st) k.
Proof.
  intros jns st pu pg T I. destruct (relay_ends s _ _ _ (p_service _ Pm) (inv_from_ground _ _ _ _ _ I) (ji_isl _ _ _ _ _ I)) as [_ (k & fw' & rns' & R & Q)].
  exists k. unfold isl_left. pose proof (ji_isl _ _ _ _ _ I) as Ri. unfold g_relay, relay in *. rewrite relay_run_app, Ri in R. cbn [obind fst snd] in R.
  destruct (r_run x ndn devs react (j_isl st) (repeat RNext k)) as [[[y' n']| | |]|]; try discriminate. cbn [obind fst snd] in R. injection R as -> _. eauto.
Qed.

Lemma up_left_step : forall fw fw' out k, f_call (up_y_step w rx) YSend up_do sat_up ndn fw (FDo UNext) = Some (Ok (fw', out)) -> up_left fw k -> exists k', k = (1 + k')%nat /\ up_left fw' k'.
Proof.
  intros fw fw' out k H (y & ns & R & Q). cbn [f_call up_do] in H. unfold operate in H. destruct (up_y_step w rx (fw_net fw) YNext) as [[[y1 n1]| | |]|] eqn:St; try discriminate. cbn [rbind] in H.
  apply some_eq in H. destruct (deliver_net _ _ _ _ _ _ _ _ H) as [En _]. cbn [fw_net] in En. destruct k as [|k].
  - cbn in R. injection R as <- <-. unfold up_y_step in St. cbn [y_step] in St. rewrite Q in St. discriminate.
  - exists k. split; [reflexivity|]. cbn [repeat n_run] in R. rewrite St in R. unfold up_left. rewrite En. destruct (n_run (up_y_step w rx) y1 (repeat YNext k)) as [[[y2 n2]| | |]|]; try discriminate.
    injection R as -> _. eauto.
Qed.
Lemma down_left_step : forall fw fw' out k, f_call (down_l_step d) LSend down_do link_up ndn fw (FDo DNext) = Some (Ok (fw', out)) -> down_left fw k -> exists k', k = (1 + k')%nat /\ down_left fw' k'.
Proof.
  intros fw fw' out k H (y & ns & R & Q). cbn [f_call down_do] in H. unfold operate in H. destruct (down_l_step d (fw_net fw) LNext) as [[[y1 n1]| | |]|] eqn:St; try discriminate. cbn [rbind] in H.
  apply some_eq in H. destruct (deliver_net _ _ _ _ _ _ _ _ H) as [En _]. cbn [fw_net] in En. destruct k as [|k].
  - cbn in R. injection R as <- <-. unfold down_l_step in St. cbn [l_step] in St. rewrite Q in St. discriminate.
  - exists k. split; [reflexivity|]. cbn [repeat n_run] in R. rewrite St in R. unfold down_left. rewrite En. destruct (n_run (down_l_step d) y1 (repeat LNext k)) as [[[y2 n2]| | |]|]; try discriminate.
    injection R as -> _. eauto.
Qed.
Lemma isl_left_step : forall fw fw' out k, r_step x ndn devs react fw RNext = Some (Ok (fw', out)) -> isl_left fw k -> exists k', k = (1 + k')%nat /\ isl_left fw' k'.
Proof.
  intros fw fw' out k H (y & ns & R & Q). destruct k as [|k].
  - cbn in R. injection R as <- <-. cbn [r_step] in H. unfold f_call, operate, isl_l_step, isl_do in H. cbn [l_step] in H. rewrite Q in H. discriminate.
  - exists k. split; [reflexivity|]. cbn [repeat r_run] in R. rewrite H in R. cbn [obind fst snd] in R. unfold isl_left. destruct (r_run x ndn devs react fw' (repeat RNext k)) as [[[y2 n2]| | |]|]; try discriminate.
    cbn [obind fst snd] in R. injection R as -> _. eauto.
Qed.

Lemma due_low : forall E (q : list (Z * E)) (le : Z * E -> Z * E -> Prop) t, (forall a b, le a b -> fst a <= fst b) -> StronglySorted le q ->
  match due q with Some t1 => t <= t1 | None => True end -> forallb (fun e => t <=? fst e) q = true.
Proof.
  intros E q le t Hl So Du. apply sorted_ready. intros e He. destruct q as [|a q]; [destruct He|]. cbn in Du. destruct He as [->|He]; [exact Du|].
  apply StronglySorted_inv in So. destruct So as [_ Fa]. rewrite Forall_forall in Fa. pose proof (Hl _ _ (Fa _ He)). lia.
Qed.
Lemma due_none : forall E (q : list (Z * E)), due q = None -> q = [].
Proof. intros E [|e q] H; [reflexivity|discriminate]. Qed.
Lemma due_in : forall E (q : list (Z * E)) T t, forallb (fun e => T <=? fst e) q = true -> due q = Some t -> T <= t.
Proof. intros E [|e q] T t H D; [discriminate|]. cbn in D, H. injection D as <-. apply andb_true_iff in H. apply Z.leb_le. apply H. Qed.

(** Something is due first. *)
Lemma next_event : forall jns st T, j_inv jns st [] [] T -> at_rest st \/ exists o t, In o [JUp; JIsl; JDown] /\ op_time st o = Some t /\ all_ready st t = true.
Proof.
  intros jns st T I. pose proof (proj1 (all_ready_parts _ _) (ji_clock _ _ _ _ _ I)) as (R1 & R2 & R3). unfold up_ready, ready in R1, R2, R3. rewrite andb_true_iff in R1, R2, R3.
  destruct R1 as [N1 Q1], R2 as [N2 Q2], R3 as [N3 Q3]. apply Z.leb_le in N1, N2, N3.
  destruct (up_state _ _ _ (ji_uf _ _ _ _ _ I) (ji_up _ _ _ _ _ I)) as [S1 _]. destruct (isl_state _ _ _ (inv_from_ground _ _ _ _ _ I) (ji_isl _ _ _ _ _ I)) as [S2 _].
  destruct (down_state _ _ _ (ji_df _ _ _ _ _ I) (ji_down _ _ _ _ _ I)) as [S3 _].
  assert (Rd : forall t, T <= t -> match due (y_queue (fw_net (j_up st))) with Some t1 => t <= t1 | None => True end -> match due (l_queue (fw_net (j_isl st))) with Some t1 => t <= t1 | None => True end ->
    match due (l_queue (fw_net (j_down st))) with Some t1 => t <= t1 | None => True end -> all_ready st t = true).
  { intros t Ht A B C. apply all_ready_parts. unfold up_ready, ready. rewrite !andb_true_iff. repeat split; try (apply Z.leb_le; lia); [exact (due_low _ _ _ t (fun a b H => H) S1 A)|exact (due_low _ _ _ t (fun a b H => H) S2 B)|exact (due_low _ _ _ t (fun a b H => H) S3 C)]. }
  assert (Cu : forall t, due (y_queue (fw_net (j_up st))) = Some t -> T <= t) by (intros t; exact (due_in _ _ _ _ Q1)).
  assert (Ci : forall t, due (l_queue (fw_net (j_isl st))) = Some t -> T <= t) by (intros t; exact (due_in _ _ _ _ Q2)).
  assert (Cd : forall t, due (l_queue (fw_net (j_down st))) = Some t -> T <= t) by (intros t; exact (due_in _ _ _ _ Q3)).
  destruct (due (y_queue (fw_net (j_up st)))) as [t1|] eqn:D1, (due (l_queue (fw_net (j_isl st)))) as [t2|] eqn:D2, (due (l_queue (fw_net (j_down st)))) as [t3|] eqn:D3.
  8: { left. split; [exact (due_none _ _ D1)|]. split; [exact (due_none _ _ D2)|exact (due_none _ _ D3)]. }
  all: right; try specialize (Cu _ eq_refl); try specialize (Ci _ eq_refl); try specialize (Cd _ eq_refl).
  1: destruct (Z.le_gt_cases t1 t2), (Z.le_gt_cases t1 t3), (Z.le_gt_cases t2 t3).
  9: destruct (Z.le_gt_cases t1 t2).
  11: destruct (Z.le_gt_cases t1 t3).
  14: destruct (Z.le_gt_cases t2 t3).
  all: first [exists JUp, t1; split; [cbn; tauto|]; split; [exact D1|]; apply Rd; solve [lia|exact Logic.I]
    | exists JIsl, t2; split; [cbn; tauto|]; split; [exact D2|]; apply Rd; solve [lia|exact Logic.I]
    | exists JDown, t3; split; [cbn; tauto|]; split; [exact D3|]; apply Rd; solve [lia|exact Logic.I] ].
Qed.

Lemma settle : forall ku ki kd ops st jns, fly_mission m rx m0 ops = Some (Ok (st, jns)) -> (exists T, j_inv jns st [] [] T) -> up_left (j_up st) ku -> isl_left (j_isl st) ki -> down_left (j_down st) kd ->
  exists ops' st' jns', Forall (fun o => In o [JUp; JIsl; JDown]) ops' /\ fly_mission m rx m0 (ops ++ ops') = Some (Ok (st', jns')) /\ at_rest st'.
Proof.
  induction ku as [ku IHu] using lt_wf_ind. induction ki as [ki IHi] using lt_wf_ind. induction kd as [kd IHd] using lt_wf_ind.
  intros ops st jns R [T I] Lu Li Ld. destruct (next_event _ _ _ I) as [Re|(o & t & Ho & Ht & Rd)].
  - exists [], st, jns. rewrite app_nil_r. auto.
  - assert (Fo : op_fine o) by (destruct Ho as [<-|[<-|[<-|[]]]]; exact Logic.I).
    destruct (step_any _ _ _ _ _ I Fo Ht Rd) as (st2 & notes & E & I2 & Sp).
    assert (R2 : fly_mission m rx m0 (ops ++ [o]) = Some (Ok (st2, jns ++ notes))).
    { rewrite (fly_app _ _ _ _ R). cbn [j_run]. unfold then_. rewrite E. cbn [obind fst snd]. rewrite app_nil_r. reflexivity. }
    assert (X : exists ku' ki' kd', up_left (j_up st2) ku' /\ isl_left (j_isl st2) ki' /\ down_left (j_down st2) kd' /\ (ku' < ku \/ ku' = ku /\ (ki' < ki \/ ki' = ki /\ kd' < kd))%nat).
    { destruct (up_some_left _ _ _ _ _ I2) as [a A], (isl_some_left _ _ _ _ _ I2) as [b B], (down_some_left _ _ _ _ _ I2) as [c C].
      destruct Ho as [<-|[<-|[<-|[]]]].
      - destruct (sp_up _ _ _ _ Sp eq_refl) as [out St]. destruct (up_left_step _ _ _ _ St Lu) as (k' & -> & L). exists k', b, c. split; [exact L|]. split; [exact B|]. split; [exact C|]. lia.
      - destruct (sp_isl _ _ _ _ Sp eq_refl) as [Eu [out St]]. destruct (isl_left_step _ _ _ _ St Li) as (k' & -> & L). exists ku, k', c. rewrite Eu. split; [exact Lu|]. split; [exact L|]. split; [exact C|]. lia.
      - destruct (sp_down _ _ _ _ Sp eq_refl) as (Eu & Ei & out & St). destruct (down_left_step _ _ _ _ St Ld) as (k' & -> & L). exists ku, ki, k'. rewrite Eu, Ei. split; [exact Lu|]. split; [exact Li|]. split; [exact L|]. lia. }
    destruct X as (ku' & ki' & kd' & A & B & C & Lt).
    assert (Y : exists ops' st' jns', Forall (fun o => In o [JUp; JIsl; JDown]) ops' /\ fly_mission m rx m0 ((ops ++ [o]) ++ ops') = Some (Ok (st', jns')) /\ at_rest st').
    { destruct Lt as [Lt|[-> [Lt|[-> Lt]]]]; [eapply (IHu ku' Lt ki' kd'); eauto|eapply (IHi ki' Lt kd'); eauto|eapply (IHd kd' Lt); eauto]. }
    destruct Y as (ops' & st' & jns' & F & R' & Re). exists (o :: ops'), st', jns'. rewrite <- app_assoc in R'. cbn [app] in R'. auto.
Qed.
End Mission.
