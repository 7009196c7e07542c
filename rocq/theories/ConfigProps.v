(** The settings of the helpers. *)
From Coq Require Import ZArith QArith List Bool Lia Ascii String.
From Verif Require Import Base ConfigModel ConfigSpec ConfigProofs.
Import ListNotations.
Open Scope string_scope.

Notation icarus_orders := (orders icarus_name true).
Notation isl_orders := (orders isl_name false).
(** The orders of a whole script. *)
Definition to_icarus (s : slot) (cs : list setting) : list order := flat_map (icarus_orders s) cs.
Definition to_isl (s : slot) (cs : list setting) : list order := flat_map (isl_orders s) cs.
Notation with_helper T P cs h := (configure (icarus_set T P) (new_helper icarus_type) cs = Ok h) (only parsing).
Notation with_isl T P cs h := (configure (isl_set T P) (new_helper isl_type) cs = Ok h) (only parsing).

Section Any.
Variable types : string -> option type.
Variable parse : attr_kind -> string -> option value.

(** ** Which scripts run *)

Theorem icarus_settings_run cs :
  (exists h, with_helper types parse cs h) <->
  forall s i, (i < List.length (to_icarus s cs))%nat -> sensible types parse (icarus_type s) (to_icarus s cs) i.
Proof.
  rewrite (configure_runs types parse _ icarus_orders (fun _ => True) (icarus_step_orders types parse) (icarus_step_runs types parse)).
  split.
  - intros [_ H] s. apply orders_run. apply H.
  - intros H. split; [apply Forall_forall; auto|]. intros s. apply orders_run. apply H.
Qed.

Theorem isl_settings_run cs :
  (exists h, with_isl types parse cs h) <->
  (forall p ty opts, In (HSet p ty opts) cs -> p = PQueue \/ p = PSuccess \/ p = PDelay) /\
  forall s i, (i < List.length (to_isl s cs))%nat -> sensible types parse (isl_type s) (to_isl s cs) i.
Proof.
  rewrite (configure_runs types parse _ isl_orders isl_may (isl_step_orders types parse) (isl_step_runs types parse)).
  assert (F : Forall isl_may cs <-> forall p ty opts, In (HSet p ty opts) cs -> p = PQueue \/ p = PSuccess \/ p = PDelay).
  { rewrite Forall_forall. split.
    - intros H p ty opts Hi. specialize (H _ Hi). cbn in H. destruct p; auto; discriminate.
    - intros H [p ty opts| |] Hi; cbn; auto. destruct (H _ _ _ Hi) as [->|[->| ->]]; reflexivity. }
  rewrite F. split; intros [Hm H]; (split; [assumption|]); intros s; apply orders_run; apply H.
Qed.

Lemma icarus_knows cs h s : with_helper types parse cs h -> knows types parse (icarus_type s) (to_icarus s cs) (h s).
Proof. intros H. apply knows_orders. apply (configure_orders types parse _ icarus_orders (icarus_step_orders types parse) _ _ _ H). Qed.
Lemma isl_knows cs h s : with_isl types parse cs h -> knows types parse (isl_type s) (to_isl s cs) (h s).
Proof. intros H. apply knows_orders. apply (configure_orders types parse _ isl_orders (isl_step_orders types parse) _ _ _ H). Qed.

(** ** What is made *)

Lemma create_as_part class init l f o : knows types parse init l f -> f_create_as types class f = Ok o -> part_as types parse class init l o.
Proof.
  intros K. unfold f_create_as. destruct (f_create types f) as [x| | |] eqn:E; try discriminate. cbn. intros H. injection H as <-.
  pose proof (create_said _ _ _ _ _ _ K E) as S. unfold part_as. destruct (as_class types class x) as [y|] eqn:Ec.
  - apply as_class_some in Ec. destruct Ec as [-> Hc]. split; assumption.
  - intros Hc. destruct S as [Et _]. rewrite <- Et in Hc. apply as_class_of in Hc. congruence.
Qed.
Lemma create_as_can class init l f : knows types parse init l f -> (exists o, f_create_as types class f = Ok o) <-> can_make types parse init l.
Proof.
  intros K. rewrite <- (create_can types parse _ _ _ K). unfold f_create_as. destruct (f_create types f); cbn; split; eauto; intros [? ?]; discriminate.
Qed.
Lemma part_some class init l o : part_as types parse class init l o -> (exists x, o = Some x) <-> of_class types class (in_use init l).
Proof.
  destruct o as [x|]; cbn.
  - intros [[<- _] Hc]. split; eauto.
  - intros Hn. split; [intros [x H]; discriminate|tauto].
Qed.

Lemma shows_point class init l o : part_as types parse class init l o -> shows types o (point_to types o).
Proof.
  destruct o as [x|]; cbn; [|reflexivity]. intros [_ (t & E & _)]. unfold point_to. rewrite E. exists t. auto.
Qed.

(** Filling in attributes one after the other. *)
Lemma filled_start init l o : as_said types parse init l o -> filled_as types parse init l [] [] o.
Proof.
  intros (E & t & Et & Hd & Ha). split; [assumption|]. exists t. repeat split; auto. intros d w Hi. right. right. repeat split; auto.
Qed.
Lemma o_put_in o n v d w : In (d, w) (o_attrs (o_put o n v)) -> (d_name d = n /\ w = v) \/ (d_name d <> n /\ In (d, w) (o_attrs o)).
Proof.
  cbn. intros Hi. apply in_map_iff in Hi. destruct Hi as ([d' w'] & E & Hi). cbn in E.
  destruct (String.eqb_spec (d_name d') n) as [En|En]; injection E as -> ->; auto.
Qed.
Lemma o_put_names o n v : map fst (o_attrs (o_put o n v)) = map fst (o_attrs o).
Proof. cbn. rewrite map_map. apply map_ext. intros [d w]. cbn. destruct (String.eqb _ _); reflexivity. Qed.
Lemma filled_fill init l fs at_ o n x v : filled_as types parse init l fs at_ o -> shows types x v ->
  filled_as types parse init l ((n, x) :: fs) at_ (o_put o n v).
Proof.
  intros (E & t & Et & Hd & Ha) Hs. split; [assumption|]. exists t. repeat split; [assumption|rewrite o_put_names; assumption|].
  intros d w Hi. apply o_put_in in Hi. destruct Hi as [[<- ->]|[Hn Hi]].
  - left. exists x. split; [left; reflexivity|assumption].
  - destruct (Ha _ _ Hi) as [(y & Hy & Hs')|[H|(H1 & H2 & H3)]].
    + left. exists y. split; [right; assumption|assumption].
    + right. left. assumption.
    + right. right. repeat split; auto. cbn. intros [H|H]; [congruence|tauto].
Qed.
Lemma filled_attach init l fs at_ o n v : filled_as types parse init l fs at_ o -> filled_as types parse init l fs ((n, v) :: at_) (o_put o n v).
Proof.
  intros (E & t & Et & Hd & Ha). split; [assumption|]. exists t. repeat split; [assumption|rewrite o_put_names; assumption|].
  intros d w Hi. apply o_put_in in Hi. destruct Hi as [[<- ->]|[Hn Hi]].
  - right. left. left. reflexivity.
  - destruct (Ha _ _ Hi) as [(y & Hy & Hs')|[H|(H1 & H2 & H3)]].
    + left. exists y. auto.
    + right. left. right. assumption.
    + right. right. repeat split; auto. cbn. intros [H|H]; [congruence|tauto].
Qed.

Notation S_mac := (SPart PMac) (only parsing).
Notation tracker_class := "ns3::icarus::GroundNodeSatTracker" (only parsing).
Notation mac_class := "ns3::icarus::MacModel" (only parsing).
Notation queue_class := "ns3::Queue<Packet>" (only parsing).
Notation said_part class cs p o := (part_as types parse class (icarus_type (SPart p)) (to_icarus (SPart p) cs) o) (only parsing).
Notation can cs s := (can_make types parse (icarus_type s) (to_icarus s cs)) (only parsing).
Notation asked cs p class := (of_class types class (in_use (icarus_type (SPart p)) (to_icarus (SPart p) cs))) (only parsing).

(** A device of the ground or of a satellite: each of its attributes as last given, those the helper fills in apart; and its MAC, its queue
    and its tracker. *)
Theorem icarus_device_said cs h ground m : with_helper types parse cs h -> icarus_device types h ground = Ok m ->
  let s := if ground then SGround else SSat in
  filled_as types parse (icarus_type s) (to_icarus s cs)
    [("TxQueue", Some (m_queue m)); (if ground then "MacModelTx" else "MacModelRx", m_mac m)]
    [("Channel", channel_line "ns3::icarus::GroundSatChannel")] (m_device m) /\
  said_part mac_class cs PMac (m_mac m) /\
  said_part queue_class cs PQueue (Some (m_queue m)) /\
  (if ground then m_tracker m <> None /\ said_part tracker_class cs PTracker (m_tracker m) else m_tracker m = None).
Proof.
  intros Hc H s. unfold icarus_device in H.
  pose proof (icarus_knows cs h s Hc) as Kd. pose proof (icarus_knows cs h (SPart PMac) Hc) as Km.
  pose proof (icarus_knows cs h (SPart PQueue) Hc) as Kq. pose proof (icarus_knows cs h (SPart PTracker) Hc) as Kt.
  fold s in H. destruct (f_create types (h s)) as [dev| | |] eqn:Ed; try discriminate. cbn [rbind] in H.
  destruct (f_create_as types mac_class (h (SPart PMac))) as [mac| | |] eqn:Em; try discriminate. cbn [rbind] in H.
  pose proof (create_as_part _ _ _ _ _ Km Em) as Pm.
  assert (T : exists tr, (if ground then tr <> None /\ said_part tracker_class cs PTracker tr else tr = None) /\
     (do q <- f_create_as types queue_class (h (SPart PQueue)) ;
      match q with
      | None => UB
      | Some o => Ok (mkMade (o_put (o_put (o_put dev (if ground then "MacModelTx" else "MacModelRx") (point_to types mac)) "TxQueue" (point_to types q))
                        "Channel" (channel_line "ns3::icarus::GroundSatChannel")) mac tr o) end) = Ok m).
  { destruct ground; cbn [rbind] in H.
    - destruct (f_create_as types tracker_class (h (SPart PTracker))) as [[tr|]| | |] eqn:Et; cbn [rbind] in H; try discriminate.
      exists (Some tr). split; [split; [discriminate|apply (create_as_part _ _ _ _ _ Kt Et)]|exact H].
    - exists None. split; [reflexivity|exact H]. }
  clear H. destruct T as (tr & Ht & H).
  destruct (f_create_as types queue_class (h (SPart PQueue))) as [[q|]| | |] eqn:Eq; cbn [rbind] in H; try discriminate.
  pose proof (create_as_part _ _ _ _ _ Kq Eq) as Pq.
  injection H as <-. cbn [m_device m_mac m_queue m_tracker].
  split; [|auto]. apply filled_attach, filled_fill; [apply filled_fill; [apply filled_start, (create_said _ _ _ _ _ _ Kd Ed)|]|];
    eapply shows_point; eassumption.
Qed.

Theorem icarus_device_runs cs h ground : with_helper types parse cs h ->
  ((exists m, icarus_device types h ground = Ok m) <->
   (can cs (if ground then SGround else SSat) /\ can cs (SPart PMac) /\
    (ground = true -> can cs (SPart PTracker) /\ asked cs PTracker tracker_class) /\
    can cs (SPart PQueue) /\ asked cs PQueue queue_class)).
Proof.
  intros Hc. set (s := if ground then SGround else SSat).
  pose proof (icarus_knows cs h s Hc) as Kd. pose proof (icarus_knows cs h (SPart PMac) Hc) as Km.
  pose proof (icarus_knows cs h (SPart PQueue) Hc) as Kq. pose proof (icarus_knows cs h (SPart PTracker) Hc) as Kt.
  rewrite <- (create_can types parse _ _ _ Kd), <- (create_as_can mac_class _ _ _ Km), <- (create_as_can tracker_class _ _ _ Kt),
    <- (create_as_can queue_class _ _ _ Kq).
  unfold icarus_device. fold s.
  destruct (f_create types (h s)) as [dev| | |] eqn:Ed; cbn [rbind]; try (split; [intros [? ?]; discriminate|intros ([? ?] & _); discriminate]).
  destruct (f_create_as types mac_class (h (SPart PMac))) as [mac| | |] eqn:Em; cbn [rbind];
    try (split; [intros [? ?]; discriminate|intros (_ & [? ?] & _); discriminate]).
  assert (Q : forall tr, (exists m, (do q <- f_create_as types queue_class (h (SPart PQueue)) ;
      match q with
      | None => UB
      | Some o => Ok (mkMade (o_put (o_put (o_put dev (if ground then "MacModelTx" else "MacModelRx") (point_to types mac)) "TxQueue" (point_to types q))
                        "Channel" (channel_line "ns3::icarus::GroundSatChannel")) mac tr o) end) = Ok m) <->
      ((exists o, f_create_as types queue_class (h (SPart PQueue)) = Ok o) /\ asked cs PQueue queue_class)).
  { intros tr. destruct (f_create_as types queue_class (h (SPart PQueue))) as [q| | |] eqn:Eq; cbn [rbind];
      try (split; [intros [? ?]; discriminate|intros ([? ?] & _); discriminate]).
    pose proof (create_as_part _ _ _ _ _ Kq Eq) as Pq. rewrite <- (part_some _ _ _ _ Pq).
    destruct q as [o|]; split; eauto; intros H; [destruct H; discriminate|destruct H as (_ & ? & ?); discriminate]. }
  destruct ground; cbn [rbind].
  - destruct (f_create_as types tracker_class (h (SPart PTracker))) as [tr| | |] eqn:Et; cbn [rbind].
    2-4: split; [intros [? ?]; discriminate|intros (_ & _ & G & _); destruct (G eq_refl) as [[? ?] _]; discriminate].
    pose proof (create_as_part _ _ _ _ _ Kt Et) as Pt. pose proof (part_some _ _ _ _ Pt) as Pt'.
    destruct tr as [tr|]; cbn [rbind].
    + rewrite (Q (Some tr)). split.
      * intros [Hq Ha]. repeat split; eauto. apply Pt'. eauto.
      * tauto.
    + split; [intros [? ?]; discriminate|]. intros (_ & _ & G & _). destruct (G eq_refl) as [_ G']. apply Pt' in G'. destruct G' as [? ?]. discriminate.
  - rewrite (Q None). split; [|tauto]. intros [Hq Ha]. repeat split; eauto; discriminate.
Qed.

(** The channel of a container. *)
Theorem icarus_channel_said cs h a : with_helper types parse cs h -> icarus_channel types h = Ok a ->
  filled_as types parse (icarus_type SChannel) (to_icarus SChannel cs)
    [("PropLossModel", i_loss a); ("PropDelayModel", i_delay a); ("TxSuccess", i_success a)] [] (i_channel a) /\
  said_part "ns3::icarus::GroundSatSuccessModel" cs PSuccess (i_success a) /\
  said_part "ns3::PropagationDelayModel" cs PDelay (i_delay a) /\
  said_part "ns3::PropagationLossModel" cs PLoss (i_loss a).
Proof.
  intros Hc. unfold icarus_channel. intros H.
  pose proof (icarus_knows cs h SChannel Hc) as Kc. pose proof (icarus_knows cs h (SPart PSuccess) Hc) as Ks.
  pose proof (icarus_knows cs h (SPart PDelay) Hc) as Kd. pose proof (icarus_knows cs h (SPart PLoss) Hc) as Kl.
  destruct (f_create types (h SChannel)) as [ch| | |] eqn:Ec; try discriminate. cbn [rbind] in H.
  destruct (f_create_as types _ (h (SPart PSuccess))) as [su| | |] eqn:Es; try discriminate. cbn [rbind] in H.
  destruct (f_create_as types _ (h (SPart PDelay))) as [de| | |] eqn:Ed; try discriminate. cbn [rbind] in H.
  destruct (f_create_as types _ (h (SPart PLoss))) as [lo| | |] eqn:El; try discriminate. cbn [rbind] in H.
  injection H as <-. cbn [i_channel i_success i_delay i_loss].
  pose proof (create_as_part _ _ _ _ _ Ks Es) as Ps. pose proof (create_as_part _ _ _ _ _ Kd Ed) as Pd.
  pose proof (create_as_part _ _ _ _ _ Kl El) as Pl.
  split; [|auto].
  repeat apply filled_fill; try (apply filled_start, (create_said _ _ _ _ _ _ Kc Ec)); eapply shows_point; eassumption.
Qed.

(** An inter-satellite link. *)
Notation isl_part class cs p o := (part_as types parse class (isl_type (SPart p)) (to_isl (SPart p) cs) o) (only parsing).
Notation isl_can cs s := (can_make types parse (isl_type s) (to_isl s cs)) (only parsing).
Notation isl_asked cs p class := (of_class types class (in_use (isl_type (SPart p)) (to_isl (SPart p) cs))) (only parsing).
Notation isl_success_class := "ns3::icarus::Sat2SatSuccessModel" (only parsing).

Definition isl_device_as (cs : list setting) (m : made) : Prop :=
  filled_as types parse (isl_type SSat) (to_isl SSat cs) [("TxQueue", Some (m_queue m))]
    [("Channel", channel_line "ns3::icarus::Sat2SatChannel")] (m_device m) /\ isl_part queue_class cs PQueue (Some (m_queue m)).

Lemma isl_device_said cs h m : with_isl types parse cs h -> isl_device types h = Ok m -> isl_device_as cs m.
Proof.
  intros Hc. unfold isl_device. intros H.
  pose proof (isl_knows cs h SSat Hc) as Kd. pose proof (isl_knows cs h (SPart PQueue) Hc) as Kq.
  destruct (f_create types (h SSat)) as [dev| | |] eqn:Ed; try discriminate. cbn [rbind] in H.
  destruct (f_create_as types queue_class (h (SPart PQueue))) as [[q|]| | |] eqn:Eq; cbn [rbind] in H; try discriminate.
  pose proof (create_as_part _ _ _ _ _ Kq Eq) as Pq. injection H as <-.
  split; [|exact Pq]. apply filled_attach, filled_fill; [apply filled_start, (create_said _ _ _ _ _ _ Kd Ed)|eapply shows_point; eassumption].
Qed.

Theorem isl_link_said cs h a m1 m2 : with_isl types parse cs h -> isl_link types h = Ok (a, m1, m2) ->
  filled_as types parse (isl_type SChannel) (to_isl SChannel cs) [("PropDelayModel", i_delay a); ("TxSuccess", i_success a)] [] (i_channel a) /\
  i_success a <> None /\ isl_part isl_success_class cs PSuccess (i_success a) /\
  isl_part "ns3::PropagationDelayModel" cs PDelay (i_delay a) /\ isl_device_as cs m1 /\ isl_device_as cs m2.
Proof.
  intros Hc. unfold isl_link. intros H.
  pose proof (isl_knows cs h SChannel Hc) as Kc. pose proof (isl_knows cs h (SPart PSuccess) Hc) as Ks.
  pose proof (isl_knows cs h (SPart PDelay) Hc) as Kd.
  destruct (f_create types (h SChannel)) as [ch| | |] eqn:Ec; try discriminate. cbn [rbind] in H.
  destruct (f_create_as types _ (h (SPart PSuccess))) as [su| | |] eqn:Es; try discriminate. cbn [rbind] in H.
  destruct (f_create_as types _ (h (SPart PDelay))) as [de| | |] eqn:Ed; try discriminate. cbn [rbind] in H.
  destruct (isl_device types h) as [m| | |] eqn:Em; try discriminate. cbn [rbind] in H.
  destruct su as [su|]; [|discriminate]. injection H as <- <- <-.
  pose proof (create_as_part _ _ _ _ _ Ks Es) as Ps. pose proof (create_as_part _ _ _ _ _ Kd Ed) as Pd.
  pose proof (isl_device_said cs h m Hc Em) as Pm. cbn [i_channel i_success i_delay].
  split; [|repeat split; auto; discriminate || apply Pm || apply Ps].
  repeat apply filled_fill; try (apply filled_start, (create_said _ _ _ _ _ _ Kc Ec)); eapply shows_point; eassumption.
Qed.

Theorem isl_link_runs cs h : with_isl types parse cs h ->
  ((exists l, isl_link types h = Ok l) <->
   (isl_can cs SChannel /\ isl_can cs (SPart PSuccess) /\ isl_asked cs PSuccess isl_success_class /\ isl_can cs (SPart PDelay) /\
    isl_can cs SSat /\ isl_can cs (SPart PQueue) /\ isl_asked cs PQueue queue_class)).
Proof.
  intros Hc.
  pose proof (isl_knows cs h SChannel Hc) as Kc. pose proof (isl_knows cs h (SPart PSuccess) Hc) as Ks.
  pose proof (isl_knows cs h (SPart PDelay) Hc) as Kd. pose proof (isl_knows cs h SSat Hc) as Kv. pose proof (isl_knows cs h (SPart PQueue) Hc) as Kq.
  rewrite <- (create_can types parse _ _ _ Kc), <- (create_as_can isl_success_class _ _ _ Ks), <- (create_as_can "ns3::PropagationDelayModel" _ _ _ Kd),
    <- (create_can types parse _ _ _ Kv), <- (create_as_can queue_class _ _ _ Kq).
  unfold isl_link, isl_device.
  destruct (f_create types (h SChannel)) as [ch| | |] eqn:Ec; cbn [rbind]; try (split; [intros [? ?]; discriminate|intros ([? ?] & _); discriminate]).
  destruct (f_create_as types _ (h (SPart PSuccess))) as [su| | |] eqn:Es; cbn [rbind];
    try (split; [intros [? ?]; discriminate|intros (_ & [? ?] & _); discriminate]).
  pose proof (create_as_part _ _ _ _ _ Ks Es) as Ps. rewrite <- (part_some _ _ _ _ Ps).
  destruct (f_create_as types _ (h (SPart PDelay))) as [de| | |] eqn:Ed; cbn [rbind];
    try (split; [intros [? ?]; discriminate|intros (_ & _ & _ & [? ?] & _); discriminate]).
  destruct (f_create types (h SSat)) as [dev| | |] eqn:Ev; cbn [rbind]; try (split; [intros [? ?]; discriminate|intros (_ & _ & _ & _ & [? ?] & _); discriminate]).
  destruct (f_create_as types queue_class (h (SPart PQueue))) as [q| | |] eqn:Eq; cbn [rbind];
    try (split; [intros [? ?]; discriminate|intros (_ & _ & _ & _ & _ & [? ?] & _); discriminate]).
  pose proof (create_as_part _ _ _ _ _ Kq Eq) as Pq. rewrite <- (part_some _ _ _ _ Pq).
  destruct q as [q|]; cbn [rbind].
  - destruct su as [su|]; split.
    + intros _. repeat split; eauto.
    + eauto.
    + intros [? ?]; discriminate.
    + intros (_ & _ & [? ?] & _); discriminate.
  - split; [intros [? ?]; discriminate|]. intros (_ & _ & _ & _ & _ & _ & [? ?]); discriminate.
Qed.
End Any.

(** ** What a setter is expected to mean *)

(** One expects a part to have the options of the last call that set it, and defaults otherwise.  This is so exactly if the attributes given only in
    earlier calls were given their defaults. *)
Theorem settings_meant_partial types parse cs h s o :
  with_helper types parse cs h -> f_create types (h s) = Ok o ->
  (as_meant types parse (icarus_type s) (to_icarus s cs) o <->
   forall d, In d (map fst (o_attrs o)) -> ever_given types parse (icarus_type s) (to_icarus s cs) d ->
     ~ ever_given types parse (icarus_type s) (last_call (to_icarus s cs)) d -> said types parse (icarus_type s) (to_icarus s cs) d (d_default d)).
Proof. intros Hc Ho. apply meant_iff. apply (create_said types parse _ _ _ _ (icarus_knows types parse cs h s Hc) Ho). Qed.

(** The registry of the module, whatever texts mean. *)
Notation known := (types_of registry).

(** Going from CRDSA to Aloha and back keeps the replicas of the first CRDSA. *)
Definition crdsa := "ns3::icarus::CrdsaMacModel".
Definition aloha := "ns3::icarus::AlohaMacModel".
Definition there_and_back : list setting :=
  [HSet PMac crdsa [("SlotsPerFrame", VUint 10); ("ReplicasPerPacket", VUint 3)];
   HSet PMac aloha [("SlotDuration", VTime 1000000)];
   HSet PMac crdsa [("SlotsPerFrame", VUint 20)]].
Definition mac_of (cs : list setting) (parse : attr_kind -> string -> option value) : result object :=
  do h <- configure (icarus_set known parse) (new_helper icarus_type) cs ; f_create known (h (SPart PMac)).
Definition attr (n : string) (o : object) : option value :=
  option_map snd (find (fun e => String.eqb (d_name (fst e)) n) (o_attrs o)).

Example there_and_back_case parse : exists o, mac_of there_and_back parse = Ok o /\ o_type o = crdsa /\
  attr "SlotsPerFrame" o = Some (VUint 20) /\ attr "ReplicasPerPacket" o = Some (VUint 3) /\ attr "SlotDuration" o = Some (VTime 0) /\
  attr "SirThreshold" o = Some VMaxReal.
Proof. eexists. split; [vm_compute; reflexivity|]. vm_compute. auto. Qed.

Theorem settings_meant_refuted parse : ~ (forall cs h o, with_helper known parse cs h -> f_create known (h (SPart PMac)) = Ok o ->
  as_meant known parse (icarus_type (SPart PMac)) (to_icarus (SPart PMac) cs) o).
Proof.
  intros H. specialize (H there_and_back).
  destruct (configure (icarus_set known parse) (new_helper icarus_type) there_and_back) as [h| | |] eqn:E; try (vm_compute in E; discriminate).
  destruct (f_create known (h (SPart PMac))) as [o| | |] eqn:Eo.
  2-4: vm_compute in E; injection E as <-; vm_compute in Eo; discriminate.
  specialize (H h o eq_refl Eo). destruct H as (_ & t & _ & _ & H).
  set (d := mkDecl crdsa "ReplicasPerPacket" KU16 (VUint 1) true).
  assert (Hi : In (d, VUint 3) (o_attrs o)).
  { vm_compute in E. injection E as <-. vm_compute in Eo. injection Eo as <-. cbn. right. right. left. reflexivity. }
  specialize (H d (VUint 3) Hi). destruct H as [(i & G & _)|[_ E3]]; [|discriminate].
  destruct G as (n & v & d' & Hn & _ & Hd & _ & Hdn & Ha). cbn in Hn.
  destruct i as [|[|[|i]]]; cbn in Hn; try discriminate.
  injection Hn as <- <-. apply lookup_names in Hd. vm_compute in Hd. injection Hd as <-. cbn in Hdn. discriminate.
Qed.

(** ** Setters that cannot do their work *)

Lemma last_char_app a b : b <> "" -> last_char (a ++ b) = last_char b.
Proof.
  intros Hb. induction a as [|c a IH]; [reflexivity|]. cbn. rewrite IH. destruct (a ++ b) eqn:E; [|reflexivity].
  destruct a; cbn in E; [congruence|discriminate].
Qed.
Lemma with_item_last t : last_char (with_item t) = Some ">"%char.
Proof.
  unfold with_item. destruct (last_char t) as [c|] eqn:E; [|apply last_char_app; discriminate].
  destruct c as [[] [] [] [] [] [] [] []]; try (apply last_char_app; discriminate). exact E.
Qed.
Lemma with_item_done t : last_char t = Some ">"%char -> with_item t = t.
Proof. intros H. unfold with_item. rewrite H. reflexivity. Qed.

(** A queue may be named with or without the type of its items. *)
Theorem queue_names types parse h ty opts : last_char ty <> Some ">"%char ->
  icarus_set types parse h (HSet PQueue ty opts) = icarus_set types parse h (HSet PQueue (ty ++ "<Packet>") opts) /\
  isl_set types parse h (HSet PQueue ty opts) = isl_set types parse h (HSet PQueue (ty ++ "<Packet>") opts).
Proof.
  intros Hl. assert (E : with_item ty = ty ++ "<Packet>").
  { unfold with_item. destruct (last_char ty) as [c|]; [|reflexivity].
    destruct c as [[] [] [] [] [] [] [] []]; try reflexivity. congruence. }
  assert (E' : with_item (ty ++ "<Packet>") = ty ++ "<Packet>") by (apply with_item_done, last_char_app; discriminate).
  split; cbn [icarus_set isl_set isl_has icarus_name isl_name]; rewrite E, E'; reflexivity.
Qed.

(** Setting the success model of inter-satellite links: no link is ever made afterwards, whatever the types registered, as long as no success
    model has a name like that of a queue. *)
Theorem isl_success_never types parse cs h ty opts :
  (forall n, of_class types "ns3::icarus::Sat2SatSuccessModel" n -> last_char n <> Some ">"%char) ->
  In (HSet PSuccess ty opts) cs -> with_isl types parse cs h -> ~ exists l, isl_link types h = Ok l.
Proof.
  intros Hn Hi Hc Hl. apply (isl_link_runs types parse cs h Hc) in Hl. destruct Hl as (_ & _ & Ha & _).
  apply Hn in Ha. apply Ha. unfold to_isl. rewrite in_use_part.
  destruct (find _ (rev cs)) as [c|] eqn:Ef.
  - apply find_some in Ef. destruct Ef as [_ Ef]. destruct c as [q t o| |]; try discriminate.
    destruct (slot_dec (SPart q) (SPart PSuccess)) as [E|]; [|discriminate]. injection E as ->. apply with_item_last.
  - exfalso. apply in_rev in Hi. apply (find_none _ _ Ef) in Hi. cbn in Hi. discriminate.
Qed.

(** With the types of the module: the one success model there is cannot be set, though it is what links have by default. *)
Theorem isl_success_refuted parse :
  (forall cs h ty opts, In (HSet PSuccess ty opts) cs -> with_isl known parse cs h -> ~ exists l, isl_link known h = Ok l) /\
  configure (isl_set known parse) (new_helper isl_type) [HSet PSuccess "ns3::icarus::Sat2SatSuccessModel" []] = Assert /\
  (exists t, known "ns3::icarus::Sat2SatSuccessModel" = Some t /\ t_new t = true) /\
  exists l, isl_link known (new_helper isl_type) = Ok l.
Proof.
  split; [|split; [reflexivity|split; [eexists; split; reflexivity|eexists; vm_compute; reflexivity]]].
  intros cs h ty opts. apply isl_success_never. intros n (t & Ht & Hi) Hl.
  unfold types_of in Ht. destruct (find _ registry) as [e|] eqn:Ef; [|discriminate]. injection Ht as <-.
  apply find_some in Ef. destruct Ef as [He En]. apply String.eqb_eq in En. subst n.
  repeat (destruct He as [<-|He]; [cbn in Hi; repeat (destruct Hi as [Hi|Hi]; [try discriminate Hi; vm_compute in Hl; discriminate Hl|]); contradiction|]).
  contradiction.
Qed.

(** The attributes that can be set on the devices of both kinds. *)
Definition common : list (string * attr_kind) :=
  [("Channel", KPtr "ns3::icarus::GroundSatChannel"); ("DataRate", KRate); ("Mtu", KU16); ("TxQueue", KPtr "ns3::Queue<Packet>"); ("TxPower", KReal)].

Local Arguments accepts : simpl never.
Theorem device_attribute_partial parse cs h n v : with_helper known parse cs h ->
  ((exists h', icarus_set known parse h (HDevice (n, v)) = Ok h') <->
   (n = "" \/ (exists k w, In (n, k) common /\ accepts parse k v = Some w) \/
    (n = "Address" /\ exists s a b, v = VText s /\ parse KMac s = Some a /\ parse KSat s = Some b))).
Proof.
  intros Hc. unfold icarus_set, f_option.
  rewrite (proj1 (icarus_knows known parse cs h SSat Hc)), (proj1 (icarus_knows known parse cs h SGround Hc)).
  unfold to_icarus. rewrite !no_use by discriminate.
  destruct (String.eqb_spec n "") as [->|Hn]; [cbn; split; eauto|].
  unfold lookup_decl, icarus_type.
  change (known "ns3::icarus::Sat2GroundNetDevice") with (Some (mkType ["ns3::icarus::Sat2GroundNetDevice"; "ns3::icarus::IcarusNetDevice"; "ns3::NetDevice"; "ns3::Object"] true
        (let o := "ns3::icarus::Sat2GroundNetDevice" in
         [mkDecl o "Address" KSat (VSat (0, 0, 0)%Z) true; mkDecl o "MacModelRx" (KPtr "ns3::icarus::MacModel") (VPtr None) true;
          real o "TxPower" 0] ++ icarus_decls))).
  change (known "ns3::icarus::GroundStaNetDevice") with (Some (mkType ["ns3::icarus::GroundStaNetDevice"; "ns3::icarus::IcarusNetDevice"; "ns3::NetDevice"; "ns3::Object"] true
        (let o := "ns3::icarus::GroundStaNetDevice" in
         [mkDecl o "Address" KMac (VMac 0) true; mkDecl o "RemoteAddress" KSat (VSat (0, 0, 0)%Z) true;
          mkDecl o "MacModelTx" (KPtr "ns3::icarus::MacModel") (VPtr None) true; real o "TxPower" 0] ++ icarus_decls))).
  unfold icarus_decls, real. cbn [t_decls app find d_name].
  destruct (String.eqb_spec "Address" n) as [<-|N1].
  { cbn [d_kind]. split.
    - intros [h' H]. right. right. split; [reflexivity|].
      destruct (accepts parse KSat v) as [a|] eqn:Ea; [|discriminate]. cbn [rbind] in H.
      destruct (accepts parse KMac v) as [b|] eqn:Eb; [|discriminate].
      destruct v; try discriminate; unfold accepts in Ea, Eb. exists s, b, a. auto.
    - intros [?|[(k & w & Hi & _)|(_ & s & a & b & -> & Ea & Eb)]]; [congruence| |].
      + exfalso. cbn in Hi. repeat (destruct Hi as [Hi|Hi]; [discriminate|]). contradiction.
      + unfold accepts. rewrite Ea, Eb. cbn. eauto. }
  assert (A : n <> "Address") by congruence.
  destruct (String.eqb_spec "MacModelRx" n) as [<-|N2].
  { cbn. split.
    - intros [h' H]. destruct (accepts parse _ v); discriminate.
    - intros [?|[(k & w & Hi & _)|(? & _)]]; [congruence| |congruence].
      exfalso. repeat (destruct Hi as [Hi|Hi]; [discriminate|]). contradiction. }
  destruct (String.eqb_spec "RemoteAddress" n) as [<-|N3].
  { cbn. split.
    - intros [h' H]. discriminate.
    - intros [?|[(k & w & Hi & _)|(? & _)]]; [congruence| |congruence].
      exfalso. repeat (destruct Hi as [Hi|Hi]; [discriminate|]). contradiction. }
  destruct (String.eqb_spec "MacModelTx" n) as [<-|N4].
  { cbn. split.
    - intros [h' H]. discriminate.
    - intros [?|[(k & w & Hi & _)|(? & _)]]; [congruence| |congruence].
      exfalso. repeat (destruct Hi as [Hi|Hi]; [discriminate|]). contradiction. }
  assert (C : forall k, In (n, k) common -> (forall k', In (n, k') common -> k' = k) ->
    ((exists h', (do f1 <- match accepts parse k v with None => Abort | Some w => Ok w end ; do f2 <- match accepts parse k v with None => Abort | Some w => Ok w end ; Ok (f1, f2)) = Ok h') <->
     (n = "" \/ (exists k w, In (n, k) common /\ accepts parse k v = Some w) \/ (n = "Address" /\ exists s a b, v = VText s /\ parse KMac s = Some a /\ parse KSat s = Some b)))).
  { intros k Hi Hu. destruct (accepts parse k v) as [w|] eqn:E; cbn; split; eauto.
    - intros _. right. left. exists k, w. exact (conj Hi E).
    - intros [? ?]. discriminate.
    - intros [?|[(k' & w & Hi' & Ha)|(? & _)]]; [congruence| |congruence]. rewrite (Hu _ Hi') in Ha. congruence. }
  assert (D : forall k (F1 F2 : value -> factory),
    ((exists h', (do f1 <- match accepts parse k v with Some w => Ok (F1 w) | None => Abort end ;
                  do f2 <- match accepts parse k v with Some w => Ok (F2 w) | None => Abort end ; Ok (put (put h SSat f1) SGround f2)) = Ok h') <->
     (exists h', (do f1 <- match accepts parse k v with None => Abort | Some w => Ok w end ; do f2 <- match accepts parse k v with None => Abort | Some w => Ok w end ; Ok (f1, f2)) = Ok h'))).
  { intros k F1 F2. destruct (accepts parse k v); cbn; split; eauto; intros [? ?]; discriminate. }
  destruct (String.eqb_spec "TxPower" n) as [<-|N5]; [cbn [d_kind]; rewrite D; apply C; cbn; [tauto|intros k' Hk; repeat (destruct Hk as [Hk|Hk]; [congruence|]); contradiction]|].
  destruct (String.eqb_spec "Channel" n) as [<-|N6]; [cbn [d_kind]; rewrite D; apply C; cbn; [tauto|intros k' Hk; repeat (destruct Hk as [Hk|Hk]; [congruence|]); contradiction]|].
  destruct (String.eqb_spec "DataRate" n) as [<-|N7]; [cbn [d_kind]; rewrite D; apply C; cbn; [tauto|intros k' Hk; repeat (destruct Hk as [Hk|Hk]; [congruence|]); contradiction]|].
  destruct (String.eqb_spec "Mtu" n) as [<-|N8]; [cbn [d_kind]; rewrite D; apply C; cbn; [tauto|intros k' Hk; repeat (destruct Hk as [Hk|Hk]; [congruence|]); contradiction]|].
  destruct (String.eqb_spec "TxQueue" n) as [<-|N9]; [cbn [d_kind]; rewrite D; apply C; cbn; [tauto|intros k' Hk; repeat (destruct Hk as [Hk|Hk]; [congruence|]); contradiction]|].
  cbn. split; [intros [? ?]; discriminate|].
  intros [?|[(k & w & Hi & _)|(? & _)]]; [congruence| |congruence].
  exfalso. repeat (destruct Hi as [Hi|Hi]; [injection Hi as Hi _; congruence|]). contradiction.
Qed.

(** Every attribute of the devices of the ground should be settable before they are made; the address of the satellite to listen to is not,
    whatever was called before. *)
Theorem device_attribute_refuted parse :
  (exists t d, known "ns3::icarus::GroundStaNetDevice" = Some t /\ In d (t_decls t) /\ d_name d = "RemoteAddress" /\
     accepts parse (d_kind d) (VSat (0, 1, 2)%Z) = Some (VSat (0, 1, 2)%Z)) /\
  forall cs h v, with_helper known parse cs h -> icarus_set known parse h (HDevice ("RemoteAddress", v)) = Abort.
Proof.
  split.
  - eexists; eexists. split; [reflexivity|]. split; [right; left; reflexivity|]. split; reflexivity.
  - intros cs h v Hc. unfold icarus_set, f_option. rewrite (proj1 (icarus_knows known parse cs h SSat Hc)).
    unfold to_icarus. rewrite no_use by discriminate. reflexivity.
Qed.

(** A success model given to the channel itself is accepted and replaced by that of the helper. *)
Definition near := ["ns3::icarus::GroundSatSuccessDistance"; "ns3::icarus::GroundSatSuccessModel"; "ns3::Object"].
Theorem channel_attribute_refuted parse : exists h a,
  with_helper known parse [HChannel ("TxSuccess", VPtr (Some near))] h /\ icarus_channel known h = Ok a /\
  said known parse (icarus_type SChannel) (to_icarus SChannel [HChannel ("TxSuccess", VPtr (Some near))])
    (mkDecl "ns3::icarus::GroundSatChannel" "TxSuccess" (KPtr "ns3::icarus::GroundSatSuccessModel") (VPtr None) true) (VPtr (Some near)) /\
  attr "TxSuccess" (i_channel a) = Some (VPtr (Some ["ns3::icarus::GroundSatSuccessElevation"; "ns3::icarus::GroundSatSuccessModel"; "ns3::Object"])).
Proof.
  eexists. eexists. split; [vm_compute; reflexivity|]. split; [vm_compute; reflexivity|]. split; [|vm_compute; reflexivity].
  left. exists 0%nat. split.
  - exists "TxSuccess", (VPtr (Some near)). eexists. split; [reflexivity|]. split; [discriminate|].
    rewrite <- lookup_names. split; [vm_compute; reflexivity|]. split; [reflexivity|]. split; [reflexivity|]. vm_compute. reflexivity.
  - intros j w Hj (n & v & d & H & _). destruct j as [|[|j]]; cbn in H; [lia|discriminate|discriminate].
Qed.

(** A whole set-up: CRDSA, an elevation tracker, a queue named without its items, a data rate. *)
Example helper_case : let parse := fun (_ : attr_kind) (_ : string) => None in
  exists h g a, with_helper known parse
    [HSet PMac crdsa [("SlotDuration", VTime 1000000); ("SlotsPerFrame", VUint 20); ("ReplicasPerPacket", VUint 2)];
     HSet PTracker "ns3::icarus::GroundNodeSatTrackerElevation" [("MinElevation", VReal 30)];
     HSet PQueue "ns3::DropTailQueue" [("MaxSize", VSize 10)]; HDevice ("DataRate", VRate 50000000); HDevice ("", VRate 1);
     HSet PSuccess "ns3::icarus::GroundSatSuccessDistance" []] h /\
  icarus_device known h true = Ok g /\ icarus_channel known h = Ok a /\
  attr "DataRate" (m_device g) = Some (VRate 50000000) /\ attr "Mtu" (m_device g) = Some (VUint 1500) /\
  option_map o_type (m_mac g) = Some crdsa /\ match m_mac g with Some x => attr "ReplicasPerPacket" x | None => None end = Some (VUint 2) /\
  match m_tracker g with Some x => attr "MinElevation" x | None => None end = Some (VReal 30) /\
  attr "MaxSize" (m_queue g) = Some (VSize 10) /\
  match i_success a with Some x => attr "MaxDistance" x | None => None end = Some (VReal 1000000).
Proof. eexists. eexists. eexists. split; [vm_compute; reflexivity|]. split; [vm_compute; reflexivity|]. split; [vm_compute; reflexivity|]. vm_compute. auto 10. Qed.

(** Calls that stop the program. *)
Example helper_fails_case : let parse := fun (_ : attr_kind) (_ : string) => None in
  let run cs := configure (icarus_set known parse) (new_helper icarus_type) cs in
  run [HSet PMac "ns3::icarus::NoSuchModel" []] = Assert /\
  run [HSet PMac aloha [("SlotsPerFrame", VUint 3)]] = Abort /\
  run [HSet PMac crdsa [("SlotsPerFrame", VUint 65536)]] = Abort /\
  rbind (run [HSet PTracker aloha []]) (fun h => icarus_device known h true) = UB /\
  rbind (run [HSet PMac "ns3::icarus::MacModel" []]) (fun h => icarus_device known h false) = Abort /\
  rbind (run [HChannel ("Id", VUint 3)]) (fun h => icarus_channel known h) = Abort.
Proof. vm_compute. auto 10. Qed.

(** ** What is not set *)

Lemma unset_in_use name both p init cs : (forall ty opts, ~ In (HSet p ty opts) cs) ->
  in_use init (flat_map (orders name both (SPart p)) cs) = init.
Proof.
  induction cs as [|c cs IH]; intros N; [reflexivity|]. assert (E : orders name both (SPart p) c = []).
  { destruct c as [q ty opts|o|o]; cbn [orders]; [|destruct o; reflexivity..]. destruct (slot_dec (SPart q) (SPart p)) as [E|_]; [|reflexivity].
    exfalso. injection E as ->. exact (N ty opts (or_introl eq_refl)). }
  cbn [flat_map]. rewrite E. apply IH. intros ty opts I. exact (N ty opts (or_intror I)).
Qed.
Lemma no_use_in_use name both s init cs : (forall p, s <> SPart p) -> in_use init (flat_map (orders name both s) cs) = init.
Proof.
  intros Ns. induction cs as [|c cs IH]; [reflexivity|]. cbn [flat_map]. destruct c as [q ty opts|o|o], s as [p| | |]; try (exfalso; exact (Ns p eq_refl));
    cbn [orders]; try exact IH; destruct both; cbn [app in_use]; exact IH.
Qed.

(** The devices are of the types they should be whatever is set, and a part nobody set is of its documented type: no MAC, a periodic tracker,
    success by elevation, a drop-tail queue of packets, delays at constant speed, Friis losses. *)
Theorem icarus_unset types parse cs h : with_helper types parse cs h ->
  let unset p := forall ty opts, ~ In (HSet p ty opts) cs in
  (forall ground g, icarus_device types h ground = Ok g ->
     o_type (m_device g) = (if ground then "ns3::icarus::GroundStaNetDevice" else "ns3::icarus::Sat2GroundNetDevice") /\
     (unset PMac -> forall x, m_mac g = Some x -> o_type x = "ns3::icarus::NoneMacModel") /\
     (unset PTracker -> forall x, m_tracker g = Some x -> o_type x = "ns3::icarus::GroundNodeSatTrackerPeriodic") /\
     (unset PQueue -> o_type (m_queue g) = "ns3::DropTailQueue<Packet>")) /\
  (forall a, icarus_channel types h = Ok a -> o_type (i_channel a) = "ns3::icarus::GroundSatChannel" /\
     (unset PSuccess -> forall x, i_success a = Some x -> o_type x = "ns3::icarus::GroundSatSuccessElevation") /\
     (unset PDelay -> forall x, i_delay a = Some x -> o_type x = "ns3::ConstantSpeedPropagationDelayModel") /\
     (unset PLoss -> forall x, i_loss a = Some x -> o_type x = "ns3::FriisPropagationLossModel")).
Proof.
  intros Hc unset.
  assert (U : forall p class o, part_as types parse class (icarus_type (SPart p)) (to_icarus (SPart p) cs) o -> unset p -> forall x, o = Some x -> o_type x = icarus_type (SPart p)).
  { intros p class o P N x ->. destruct P as [[E _] _]. rewrite E. unfold to_icarus. apply unset_in_use. exact N. }
  split.
  - intros ground g G. destruct (icarus_device_said types parse cs h ground g Hc G) as ((E & _) & M & Q & T). split; [|split; [|split]].
    + rewrite E. unfold to_icarus. rewrite no_use_in_use by (destruct ground; discriminate). destruct ground; reflexivity.
    + exact (U PMac _ _ M).
    + destruct ground; [exact (U PTracker _ _ (proj2 T))|intros _ x X; congruence].
    + intros N. exact (U PQueue _ _ Q N _ eq_refl).
  - intros a A. destruct (icarus_channel_said types parse cs h a Hc A) as ((E & _) & S & D & L). split; [|split; [|split]].
    + rewrite E. unfold to_icarus. apply no_use_in_use. discriminate.
    + exact (U PSuccess _ _ S).
    + exact (U PDelay _ _ D).
    + exact (U PLoss _ _ L).
Qed.

Theorem isl_unset types parse cs h a m1 m2 : with_isl types parse cs h -> isl_link types h = Ok (a, m1, m2) ->
  let unset p := forall ty opts, ~ In (HSet p ty opts) cs in
  o_type (i_channel a) = "ns3::icarus::Sat2SatChannel" /\ o_type (m_device m1) = "ns3::icarus::SatNetDevice" /\ o_type (m_device m2) = "ns3::icarus::SatNetDevice" /\
  (unset PSuccess -> forall x, i_success a = Some x -> o_type x = "ns3::icarus::Sat2SatSuccessModel") /\
  (unset PDelay -> forall x, i_delay a = Some x -> o_type x = "ns3::ConstantSpeedPropagationDelayModel") /\
  (unset PQueue -> o_type (m_queue m1) = "ns3::DropTailQueue<Packet>" /\ o_type (m_queue m2) = "ns3::DropTailQueue<Packet>").
Proof.
  intros Hc H unset. destruct (isl_link_said types parse cs h a m1 m2 Hc H) as ((E & _) & _ & S & D & ((E1 & _) & Q1) & ((E2 & _) & Q2)).
  assert (U : forall p class o, part_as types parse class (isl_type (SPart p)) (to_isl (SPart p) cs) o -> unset p -> forall x, o = Some x -> o_type x = isl_type (SPart p)).
  { intros p class o P N x ->. destruct P as [[Ex _] _]. rewrite Ex. unfold to_isl. apply unset_in_use. exact N. }
  split; [rewrite E; unfold to_isl; apply no_use_in_use; discriminate|]. split; [rewrite E1; unfold to_isl; apply no_use_in_use; discriminate|].
  split; [rewrite E2; unfold to_isl; apply no_use_in_use; discriminate|]. split; [exact (U PSuccess _ _ S)|]. split; [exact (U PDelay _ _ D)|].
  intros N. split; [exact (U PQueue _ _ Q1 N _ eq_refl)|exact (U PQueue _ _ Q2 N _ eq_refl)].
Qed.

Print Assumptions icarus_unset.
Print Assumptions isl_unset.
Print Assumptions icarus_settings_run.
Print Assumptions isl_settings_run.
Print Assumptions icarus_device_said.
Print Assumptions icarus_device_runs.
Print Assumptions icarus_channel_said.
Print Assumptions isl_link_said.
Print Assumptions isl_link_runs.
Print Assumptions settings_meant_partial.
Print Assumptions settings_meant_refuted.
Print Assumptions queue_names.
Print Assumptions isl_success_never.
Print Assumptions isl_success_refuted.
Print Assumptions device_attribute_partial.
Print Assumptions device_attribute_refuted.
Print Assumptions channel_attribute_refuted.

(** The MTU of the devices can be set to just what 16 bits hold, and a queue made by name holds as many packets as said. *)
Theorem device_mtu_range parse cs h n : with_helper known parse cs h ->
  ((exists h', icarus_set known parse h (HDevice ("Mtu", VUint n)) = Ok h') <-> (0 <= n <= 65535)%Z).
Proof.
  intros Hc. rewrite (device_attribute_partial parse cs h "Mtu" (VUint n) Hc). split.
  - intros [H|[(k & w & Hi & Ha)|(H & _)]]; try discriminate.
    assert (k = KU16) by (cbn in Hi; repeat (destruct Hi as [Hi|Hi]; [congruence|]); contradiction). subst k.
    unfold accepts in Ha. destruct (0 <=? n)%Z eqn:A, (n <? 65536)%Z eqn:B; try discriminate.
    apply Z.leb_le in A. apply Z.ltb_lt in B. lia.
  - intros H. right. left. exists KU16, (VUint n). split; [cbn; tauto|]. unfold accepts.
    assert (A : (0 <=? n)%Z = true) by (apply Z.leb_le; lia). assert (B : (n <? 65536)%Z = true) by (apply Z.ltb_lt; lia).
    rewrite A, B. reflexivity.
Qed.
Print Assumptions device_mtu_range.

Theorem queue_size_given parse n : exists h g, with_helper known parse [HSet PQueue "ns3::DropTailQueue" [("MaxSize", VSize n)]] h /\
  icarus_device known h true = Ok g /\ attr "MaxSize" (m_queue g) = Some (VSize n) /\
  exists h' a m1 m2, with_isl known parse [HSet PQueue "ns3::DropTailQueue" [("MaxSize", VSize n)]] h' /\
    isl_link known h' = Ok (a, m1, m2) /\ attr "MaxSize" (m_queue m1) = Some (VSize n) /\ attr "MaxSize" (m_queue m2) = Some (VSize n).
Proof.
  eexists. eexists. split; [vm_compute; reflexivity|]. split; [vm_compute; reflexivity|]. split; [vm_compute; reflexivity|].
  eexists. eexists. eexists. eexists. split; [vm_compute; reflexivity|]. split; [vm_compute; reflexivity|]. vm_compute. auto.
Qed.
Print Assumptions queue_size_given.
