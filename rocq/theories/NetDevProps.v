(** C102 to C105: the settings of devices, when they signal a change of their link, who is on a channel, what a device made by
    a helper can do. *)
From Coq Require Import ZArith List Lia Bool Arith.
From Verif Require DeviceSpec DeviceProofs.
From Verif Require Import Base SatAddrModel SatAddrSpec SatAddrProofs ChannelModel NetDevModel NetDevSpec NetDevProofs.
Import ListNotations.
Open Scope nat_scope.

Section Programs.
Variable h : host.
Variables mac_type sat_type : Z.
Variable mob : nat -> mobility.
Variable success : option (nat -> nat -> bool).
Variable cls : nat -> dclass.
Variable l : program.
Variable w : nworld.
Variable sg : list nsignal.
Hypothesis ran : nd_run h mac_type sat_type mob success (nw_new cls) l = Some (Ok (w, sg)).

Let x (d : nat) := nw_dev w d.

Lemma num_last : forall f r g, 
  (forall w d o w1 s v, nd_step h mac_type sat_type mob success w d o = Some (Ok (w1, s)) -> True -> f o = Some v -> num_of g (nd_class (nw_dev w d)) v (nd_reg (nw_dev w1 d) r)) ->
  (forall w d o w1 s, nd_step h mac_type sat_type mob success w d o = Some (Ok (w1, s)) -> f o = None -> nd_reg (nw_dev w1 d) r = nd_reg (nw_dev w d) r) ->
  forall d v, told_last f d l v -> nd_number (x d) r = Ok (g v).
Proof.
  intros f r g W L d v T. unfold nd_number, x. rewrite (last_holds h mac_type sat_type mob success f r (fun _ => True) (num_of g) W L _ _ _ _ d v ran (fun _ _ => Logic.I) T). reflexivity.
Qed.
Lemma obj_last : forall f r, 
  (forall w d o w1 s v, nd_step h mac_type sat_type mob success w d o = Some (Ok (w1, s)) -> True -> f o = Some v -> obj_of (nd_class (nw_dev w d)) v (nd_reg (nw_dev w1 d) r)) ->
  (forall w d o w1 s, nd_step h mac_type sat_type mob success w d o = Some (Ok (w1, s)) -> f o = None -> nd_reg (nw_dev w1 d) r = nd_reg (nw_dev w d) r) ->
  forall d v, told_last f d l v -> nd_reg (x d) r = ptr v.
Proof.
  intros f r W L d v T. unfold x. exact (last_holds h mac_type sat_type mob success f r (fun _ => True) obj_of W L _ _ _ _ d v ran (fun _ _ => Logic.I) T).
Qed.
Lemma class_kept : forall d, nd_class (x d) = cls d.
Proof. intros d. unfold x. rewrite (run_class h mac_type sat_type mob success _ _ _ _ d ran). reflexivity. Qed.

(** C102.  After any program on any devices: each setting of each device is what the last call on that device about it said,
    whatever else was called, or else its default. *)
Theorem device_settings : (forall d o, In (d, o) l -> bytes_given o) -> forall d,
  (forall v, told_last tells_rate d l v -> nd_number (x d) Rate = Ok v) /\ (told_never tells_rate d l -> nd_number (x d) Rate = Ok 1000000000%Z) /\
  (forall v, told_last tells_mtu d l v -> nd_number (x d) Mtu = Ok (v mod 65536)%Z) /\ (told_never tells_mtu d l -> nd_number (x d) Mtu = Ok 1500%Z) /\
  (forall v, told_last tells_index d l v -> nd_number (x d) IfIndex = Ok (v mod 4294967296)%Z) /\ (told_never tells_index d l -> nd_number (x d) IfIndex = UB) /\
  (forall v, told_last tells_power d l v -> nd_number (x d) TxPower = Ok v) /\ (told_never tells_power d l -> cls d <> SatSide -> nd_number (x d) TxPower = Ok 0%Z) /\
  (forall f r, In (f, r) [(tells_queue, TxQueue); (tells_node, TheNode); (tells_up, Receive); (tells_promisc, Promisc); (tells_mac, MacModel); (tells_channel, Chan)] ->
     (forall v, told_last f d l v -> nd_object (x d) r = v) /\ (told_never f d l -> nd_object (x d) r = None)) /\
  match cls d with
  | GroundSta =>
      (forall b, told_last (tells_bytes h) d l b -> nd_address h mac_type sat_type (x d) = Ok (mkGen mac_type b)) /\
      (told_never (tells_bytes h) d l -> nd_address h mac_type sat_type (x d) = Ok (mkGen mac_type (repeat 0 6)%Z)) /\
      (forall b, told_last (tells_remote h) d l b -> nd_remote h sat_type (x d) = Some (Ok (mkGen sat_type b))) /\
      (told_never (tells_remote h) d l -> nd_remote h sat_type (x d) = Some (Ok (mkGen sat_type (repeat 0 6)%Z)))
  | SatDown =>
      (forall b, told_last (tells_bytes h) d l b -> nd_address h mac_type sat_type (x d) = Ok (mkGen sat_type b)) /\
      (told_never (tells_bytes h) d l -> nd_address h mac_type sat_type (x d) = Ok (mkGen sat_type (repeat 0 6)%Z)) /\
      nd_remote h sat_type (x d) = None
  | SatSide => nd_address h mac_type sat_type (x d) = Ok (mkGen mac_type (repeat 255 6)%Z) /\ nd_remote h sat_type (x d) = None
  end.
Proof.
  intros By d.
  assert (Num : forall f r z, (forall w d o w1 s, nd_step h mac_type sat_type mob success w d o = Some (Ok (w1, s)) -> f o = None -> nd_reg (nw_dev w1 d) r = nd_reg (nw_dev w d) r) ->
    told_never (A := Z) f d l -> nd_reg (nd_new (cls d)) r = VNum z -> nd_number (x d) r = Ok z).
  { intros f r z L N E. unfold nd_number, x. rewrite (untouched h mac_type sat_type mob success f r L _ _ _ _ d ran N). cbn [nw_new nw_dev]. rewrite E. reflexivity. }
  split; [exact (num_last _ _ _ (set_rate h mac_type sat_type mob success) (keep_rate h mac_type sat_type mob success) d)|].
  split; [intros N; exact (Num _ _ _ (keep_rate h mac_type sat_type mob success) N eq_refl)|].
  split; [exact (num_last _ _ _ (set_mtu h mac_type sat_type mob success) (keep_mtu h mac_type sat_type mob success) d)|].
  split; [intros N; exact (Num _ _ _ (keep_mtu h mac_type sat_type mob success) N eq_refl)|].
  split; [exact (num_last _ _ _ (set_index h mac_type sat_type mob success) (keep_index h mac_type sat_type mob success) d)|].
  split; [intros N; unfold nd_number, x; rewrite (untouched h mac_type sat_type mob success _ _ (keep_index h mac_type sat_type mob success) _ _ _ _ d ran N); reflexivity|].
  split; [exact (num_last _ _ _ (set_power h mac_type sat_type mob success) (keep_power h mac_type sat_type mob success) d)|].
  split; [intros N Ne; refine (Num _ _ _ (keep_power h mac_type sat_type mob success) N _); cbn; destruct (cls d); congruence|].
  split.
  { intros f r Hin.
    assert (Q : (forall w d o w1 s v, nd_step h mac_type sat_type mob success w d o = Some (Ok (w1, s)) -> True -> f o = Some v -> obj_of (nd_class (nw_dev w d)) v (nd_reg (nw_dev w1 d) r)) /\
      (forall w d o w1 s, nd_step h mac_type sat_type mob success w d o = Some (Ok (w1, s)) -> f o = None -> nd_reg (nw_dev w1 d) r = nd_reg (nw_dev w d) r) /\ nd_reg (nd_new (cls d)) r = VNil).
    { cbn [In] in Hin. destruct Hin as [E|[E|[E|[E|[E|[E|[]]]]]]]; injection E as <- <-;
        (split; [|split; [|reflexivity]]).
      - apply set_queue. - apply keep_queue. - apply set_node. - apply keep_node. - apply set_up. - apply keep_up. - apply set_promisc. - apply keep_promisc. - apply set_macmodel. - apply keep_macmodel.
      - apply set_channel. - apply keep_channel. }
    destruct Q as (W & L & E). split.
    - intros v T. unfold nd_object. rewrite (obj_last f r W L d v T). destruct v; reflexivity.
    - intros N. unfold nd_object, x. rewrite (untouched h mac_type sat_type mob success f r L _ _ _ _ d ran N). cbn [nw_new nw_dev]. rewrite E. reflexivity. }
  assert (Ad : forall b, told_last (tells_bytes h) d l b -> address_of h (cls d) b (nd_reg (x d) Address)).
  { intros b T. exact (last_holds h mac_type sat_type mob success _ _ _ _ (set_address h mac_type sat_type mob success) (keep_address h mac_type sat_type mob success) _ _ _ _ d b ran (By d) T). }
  assert (Re : forall b, told_last (tells_remote h) d l b -> remote_of h (cls d) b (nd_reg (x d) Remote)).
  { intros b T. exact (last_holds h mac_type sat_type mob success _ _ _ _ (set_remote_bytes h mac_type sat_type mob success) (keep_remote h mac_type sat_type mob success) _ _ _ _ d b ran (By d) T). }
  assert (Ad0 : told_never (tells_bytes h) d l -> nd_reg (x d) Address = nd_reg (nd_new (cls d)) Address) by (intros N; exact (untouched h mac_type sat_type mob success _ _ (keep_address h mac_type sat_type mob success) _ _ _ _ d ran N)).
  assert (Re0 : told_never (tells_remote h) d l -> nd_reg (x d) Remote = nd_reg (nd_new (cls d)) Remote) by (intros N; exact (untouched h mac_type sat_type mob success _ _ (keep_remote h mac_type sat_type mob success) _ _ _ _ d ran N)).
  unfold nd_address, nd_remote. rewrite class_kept. destruct (cls d) eqn:C.
  - repeat split.
    + intros b T. rewrite (Ad b T). reflexivity.
    + intros N. rewrite (Ad0 N). reflexivity.
    + intros b T. destruct (Re b T) as (_ & a & -> & <-). reflexivity.
    + intros N. rewrite (Re0 N). cbn. destruct h; reflexivity.
  - repeat split.
    + intros b T. destruct (Ad b T) as (a & -> & <-). reflexivity.
    + intros N. rewrite (Ad0 N). cbn. destruct h; reflexivity.
  - split; reflexivity.
Qed.

(** C103.  The callbacks of a device are called, all in order of registration, each time it is attached, and at no other time. *)
Theorem device_notices : filter is_change sg = notices [] l.
Proof. exact (proj2 (n_run h mac_type sat_type mob success cls l [] _ _ _ (n_start cls) ran)). Qed.

(** Whenever the link of a device goes up or down in one more call, that call attached it, and all its callbacks were called;
    except that the channel may be set as an attribute. *)
Theorem device_link_signalled_partial : forall e o w2 s2 d, nd_step h mac_type sat_type mob success w e o = Some (Ok (w2, s2)) ->
  nd_link_up (nw_dev w2 d) <> nd_link_up (x d) -> (forall c, (e, o) <> (d, NChanAttr c)) ->
  exists c, (e, o) = (d, NAttach c) /\ s2 = map (Changed d) (registered d l).
Proof.
  intros e o w2 s2 d St Up No. destruct (Nat.eq_dec d e) as [<-|Ne].
  2:{ exfalso. apply Up. unfold x. rewrite (step_other h mac_type sat_type mob success _ _ _ _ _ _ St Ne). reflexivity. }
  destruct (tells_channel o) as [c|] eqn:T.
  2:{ exfalso. apply Up. unfold nd_link_up, nd_object, x. rewrite (keep_channel h mac_type sat_type mob success _ _ _ _ _ St T). reflexivity. }
  destruct o; try discriminate T; [|exfalso; exact (No _ eq_refl)]. injection T as ->. exists c. split; [reflexivity|].
  destruct (n_run h mac_type sat_type mob success cls l [] _ _ _ (n_start cls) ran) as [I _]. cbn [app] in I.
  cbn [nd_step] in St. injection St as St. unfold nd_attach, rbind in St. rewrite <- (ni_change _ _ _ I d). change (nd_change (nw_dev w d)) with (nd_change (nw_dev w d)).
  repeat match type of St with context [match ?y with _ => _ end] => destruct y; try discriminate St end; injection St as _ <-; reflexivity.
Qed.

(** The trace of the remote address fires when, and only when, a call of SetRemoteAddress changes it, with the address before and after. *)
Definition points_anew (o : ncall) : bool := match o with NRemote _ | NRemoteAny _ => true | _ => false end.
Theorem device_retargets : forall e o w2 s2, nd_step h mac_type sat_type mob success w e o = Some (Ok (w2, s2)) ->
  (points_anew o = true -> forall r a, nd_reg (x e) Remote = VSat r -> nd_reg (nw_dev w2 e) Remote = VSat a -> DeviceSpec.wf_sat h r -> DeviceSpec.wf_sat h a ->
     (r <> a -> s2 = [Retargeted e r a]) /\ (r = a -> s2 = [])) /\
  (points_anew o = false -> forall d r a, ~ In (Retargeted d r a) s2).
Proof.
  intros e o w2 s2 St. split.
  - intros Po r a Hr Ha Wr Wa. unfold x in Hr. destruct o; try discriminate Po; cbn [nd_step] in St; rewrite Hr in St; (destruct (nd_class (nw_dev w e)); [|discriminate St|discriminate St]).
    + injection St as <- <-. cbn in Ha. unfold nw_upd in Ha. rewrite Nat.eqb_refl in Ha. cbn in Ha. injection Ha as ->.
      rewrite (DeviceProofs.wf_neqb h r a Wr Wa). destruct (DeviceSpec.sat_dec r a) as [E|E]; split; congruence.
    + destruct (convert_from h sat_type a0) as [b| | |]; try discriminate St. cbn [rbind] in St. injection St as <- <-. cbn in Ha. unfold nw_upd in Ha. rewrite Nat.eqb_refl in Ha. cbn in Ha. injection Ha as ->.
      rewrite (DeviceProofs.wf_neqb h r a Wr Wa). destruct (DeviceSpec.sat_dec r a) as [E|E]; split; congruence.
  - intros Po d r a Hin. destruct o; try discriminate Po; cbn [nd_step] in St; unfold quiet in St;
      try (injection St as _ <-; exact Hin);
      try (repeat match type of St with context [match ?y with _ => _ end] => destruct y; try discriminate St end; unfold rbind in St; repeat match type of St with context [match ?y with _ => _ end] => destruct y; try discriminate St end; injection St as _ <-; exact Hin).
    injection St as St. unfold nd_attach, rbind in St.
    repeat match type of St with context [match ?y with _ => _ end] => destruct y; try discriminate St end; injection St as _ <-; apply in_map_iff in Hin; destruct Hin as (cb & Q & _); discriminate Q.
Qed.

(** What is received is handed to the promiscuous callback last set, if one is, and then to the other one last set; without the
    latter there is nothing to call. *)
Theorem device_passes_up : forall d,
  (forall cb, told_last tells_up d l (Some cb) ->
     (forall pc, told_last tells_promisc d l (Some pc) -> nd_pass_up (x d) = Ok [pc; cb]) /\
     (told_never tells_promisc d l \/ told_last tells_promisc d l None -> nd_pass_up (x d) = Ok [cb])) /\
  (told_never tells_up d l \/ told_last tells_up d l None -> nd_pass_up (x d) = UB).
Proof.
  intros d.
  assert (U : forall v, told_last tells_up d l v -> nd_reg (x d) Receive = ptr v) by (apply obj_last; [apply set_up|apply keep_up]).
  assert (V : forall v, told_last tells_promisc d l v -> nd_reg (x d) Promisc = ptr v) by (apply obj_last; [apply set_promisc|apply keep_promisc]).
  assert (U0 : told_never tells_up d l -> nd_reg (x d) Receive = VNil) by (intros N; exact (untouched h mac_type sat_type mob success _ _ (keep_up h mac_type sat_type mob success) _ _ _ _ d ran N)).
  assert (V0 : told_never tells_promisc d l -> nd_reg (x d) Promisc = VNil) by (intros N; exact (untouched h mac_type sat_type mob success _ _ (keep_promisc h mac_type sat_type mob success) _ _ _ _ d ran N)).
  unfold nd_pass_up. split.
  - intros cb Tc. rewrite (U _ Tc). split.
    + intros pc Tp. rewrite (V _ Tp). reflexivity.
    + intros [N|N]; [rewrite (V0 N)|rewrite (V _ N)]; reflexivity.
  - intros [N|N]; [rewrite (U0 N)|rewrite (U _ N)]; reflexivity.
Qed.

(** C104.  The list of a ground channel, and the ends of an inter-satellite one, are the devices attached to it, in order, as often as
    they were attached; there are at most two ends, and the link is made with the second. *)
Theorem device_channels : forall c,
  gs_ground (nw_gs w c) = joined cls GroundSta c l /\ ss_src (nw_ss w c) = joined cls SatSide c l /\
  (length (joined cls SatSide c l) <= 2 /\ (ss_linked (nw_ss w c) = true <-> length (joined cls SatSide c l) = 2)).
Proof.
  intros c. destruct (n_run h mac_type sat_type mob success cls l [] _ _ _ (n_start cls) ran) as [I _]. cbn [app] in I.
  split; [apply I|]. split; [apply I|]. destruct (ni_two _ _ _ I c) as [A B]. rewrite (ni_ss _ _ _ I) in A, B. split; [exact B|]. rewrite A. apply Nat.eqb_eq.
Qed.

Lemma joined_in : forall k c d, In d (joined cls k c l) <-> In (d, NAttach (Some c)) l /\ cls d = k /\ k <> SatDown.
Proof.
  intros k c d. unfold joined. rewrite in_flat_map. split.
  - intros ([e o] & Hi & H). cbn [fst snd] in H. destruct o as [| | | | | | | | | | | |i| | | | | |]; try destruct H. destruct i as [i|]; [|destruct H]. destruct (cls e) eqn:C; destruct k; try destruct H;
      (destruct (Nat.eqb_spec i c) as [->|]; [destruct H as [<-|[]]|destruct H]); repeat split; congruence || exact Hi.
  - intros (H & <- & N). exists (d, NAttach (Some c)). split; [exact H|]. cbn [fst snd]. destruct (cls d); try congruence; rewrite Nat.eqb_refl; left; reflexivity.
Qed.
Lemma joined_nodup : forall k c m, NoDup (attaches m) -> NoDup (joined cls k c m).
Proof.
  clear. intros k c. assert (Sub : forall m d, In d (joined cls k c m) -> In d (attaches m)).
  { intros m d H. unfold joined in H. apply in_flat_map in H. destruct H as ([e o] & Hi & H). apply in_flat_map. exists (e, o). split; [exact Hi|]. cbn [fst snd] in *.
    destruct o as [| | | | | | | | | | | |i| | | | | |]; try destruct H. destruct i as [i|]; [|destruct H]. destruct (cls e), k; try destruct H; (destruct (i =? c); [destruct H as [<-|[]]|destruct H]); left; reflexivity. }
  induction m as [|[e o] m IH]; intros N; [constructor|].
  assert (Nm : NoDup (attaches m)). { destruct o; cbn in N; try exact N. inversion N; assumption. }
  destruct o as [| | | | | | | | | | | |i| | | | | |]; try exact (IH Nm). destruct i as [i|]; [|exact (IH Nm)]. unfold joined. cbn [flat_map snd fst]. fold (joined cls k c m).
  destruct (cls e), k; try exact (IH Nm); destruct (i =? c); try exact (IH Nm); cbn [app]; (constructor; [|exact (IH Nm)]); intros H; inversion N as [|? ? A B]; subst; exact (A (Sub _ _ H)).
Qed.

Lemma once_split : forall d c, NoDup (attaches l) -> In (d, NAttach c) l -> exists l1 l2, l = l1 ++ (d, NAttach c) :: l2 /\ (forall c', ~ In (d, NAttach c') l1) /\ forall c', ~ In (d, NAttach c') l2.
Proof.
  intros d c N H. apply in_split in H. destruct H as (l1 & l2 & ->). exists l1, l2. split; [reflexivity|]. unfold attaches in N. rewrite flat_map_app in N. cbn [flat_map snd fst app] in N. apply NoDup_remove_2 in N.
  assert (A : forall m c', In (d, NAttach c') m -> In d (flat_map (fun x => match snd x with NAttach _ => [fst x] | _ => [] end) m)).
  { intros m c' H. apply in_flat_map. exists (d, NAttach c'). split; [exact H|left; reflexivity]. }
  split; intros c' H; apply N; apply in_or_app; [left|right]; eapply A; exact H.
Qed.

(** Where no device is attached twice and channels are only set by attaching: a device is on the list of a channel, once, just when that
    is its channel; and the two ends of a link hear each other. *)
Theorem device_on_channel_partial : attached_once l ->
  (forall c d, cls d = GroundSta -> (In d (gs_ground (nw_gs w c)) <-> nd_object (x d) Chan = Some c)) /\
  (forall c, NoDup (gs_ground (nw_gs w c)) /\ NoDup (ss_src (nw_ss w c))) /\
  (forall c d, cls d = SatSide -> (In d (ss_src (nw_ss w c)) <-> nd_object (x d) Chan = Some c)) /\
  (forall c d e, d <> e -> cls d = SatSide -> cls e = SatSide -> nd_object (x d) Chan = Some c -> nd_object (x e) Chan = Some c ->
     nd_heard_by w d = [e] /\ nd_heard_by w e = [d]) /\
  (forall c d, cls d = SatDown -> nd_object (x d) Chan = Some c -> forall g, In g (nd_heard_by w d) <-> cls g = GroundSta /\ nd_object (x g) Chan = Some c).
Proof.
  intros [N No].
  assert (Ch : forall d c, nd_object (x d) Chan = Some c <-> In (d, NAttach (Some c)) l).
  { intros d c. split.
    - intros E. assert (Dec : (exists c', In (d, NAttach c') l) \/ forall c', ~ In (d, NAttach c') l).
      { clear. induction l as [|[e o] m IH]; [right; intros c' []|]. destruct IH as [(c' & H)|IH]; [left; exists c'; right; exact H|].
        destruct (Nat.eq_dec e d) as [->|Ne]; [|right; intros c' [H|H]; [congruence|exact (IH _ H)]].
        destruct o as [| | | | | | | | | | | |i| | | | | |]; try (right; intros c' [H|H]; [discriminate H|exact (IH _ H)]). left. exists i. left. reflexivity. }
      destruct Dec as [(c' & H)|H].
      + destruct (once_split d c' N H) as (l1 & l2 & El & _ & B).
        assert (T : told_last tells_channel d l c').
        { exists l1, (NAttach c'), l2. split; [exact El|]. split; [reflexivity|]. intros o' Ho. destruct o'; try reflexivity; exfalso; [exact (B _ Ho)|]. apply (No d c0). rewrite El. apply in_or_app. right. right. exact Ho. }
        unfold nd_object in E. rewrite (obj_last tells_channel Chan (set_channel h mac_type sat_type mob success) (keep_channel h mac_type sat_type mob success) d c' T) in E. destruct c'; [|discriminate E]. injection E as ->. exact H.
      + exfalso. assert (Nv : told_never tells_channel d l). { intros o Ho. destruct o; try reflexivity; exfalso; [exact (H _ Ho)|exact (No _ _ Ho)]. }
        unfold nd_object, x in E. rewrite (untouched h mac_type sat_type mob success _ _ (keep_channel h mac_type sat_type mob success) _ _ _ _ d ran Nv) in E. discriminate E.
    - intros H. destruct (once_split d (Some c) N H) as (l1 & l2 & El & _ & B). unfold nd_object.
      rewrite (obj_last tells_channel Chan (set_channel h mac_type sat_type mob success) (keep_channel h mac_type sat_type mob success) d (Some c)); [reflexivity|].
      exists l1, (NAttach (Some c)), l2. split; [exact El|]. split; [reflexivity|]. intros o' Ho. destruct o'; try reflexivity; exfalso; [exact (B _ Ho)|]. apply (No d c0). rewrite El. apply in_or_app. right. right. exact Ho. }
  assert (G : forall c d, cls d = GroundSta -> (In d (gs_ground (nw_gs w c)) <-> nd_object (x d) Chan = Some c)).
  { intros c d K. rewrite (proj1 (device_channels c)), joined_in, Ch. intuition congruence. }
  assert (Sd : forall c d, cls d = SatSide -> (In d (ss_src (nw_ss w c)) <-> nd_object (x d) Chan = Some c)).
  { intros c d K. rewrite (proj1 (proj2 (device_channels c))), joined_in, Ch. intuition congruence. }
  split; [exact G|]. split; [intros c; destruct (device_channels c) as (-> & -> & _); split; apply joined_nodup; exact N|]. split; [exact Sd|]. split.
  - intros c d e Ne Kd Ke Hd He. pose proof (proj2 (Sd c d Kd) Hd) as Id. pose proof (proj2 (Sd c e Ke) He) as Ie.
    destruct (device_channels c) as (_ & Es & L2 & _). rewrite <- Es in L2.
    unfold nd_heard_by. fold (x d) (x e). rewrite !class_kept, Kd, Ke, Hd, He.
    destruct (ss_src (nw_ss w c)) as [|a [|b [|y z]]]; cbn [In length] in *; try lia.
    destruct Id as [<-|[<-|[]]], Ie as [<-|[<-|[]]]; try congruence; rewrite Nat.eqb_refl; rewrite (proj2 (Nat.eqb_neq _ _)) by congruence; auto.
  - intros c d K Hd g. unfold nd_heard_by. fold (x d). rewrite class_kept, K, Hd. rewrite (proj1 (device_channels c)), joined_in, Ch. split; intros; repeat split; intuition congruence.
Qed.

(** C105.  A device on which a helper made its calls, and that had nothing taken away afterwards, can send at any time and pass up
    what it receives; an inter-satellite one once its peer is attached.  The size of the packet does not matter. *)
Theorem device_serves_partial : forall d n index cb q c rest, Forall keeps rest ->
  (cls d = GroundSta /\ (exists m addr, calls_on d l = made_ground mac_type m n index cb addr q c ++ rest)) \/
  (cls d = SatDown /\ (exists m addr, calls_on d l = made_sat h sat_type m n index cb addr q (Some c) ++ rest)) \/
  (cls d = SatSide /\ calls_on d l = made_side n index cb q c ++ rest /\ length (joined cls SatSide c l) = 2) ->
  (forall size room idle, nd_send w d size room idle = Ok room) /\ exists up, nd_pass_up (x d) = Ok up.
Proof.
  intros d n index cb q c rest Kp H.
  assert (Last : forall A (f : ncall -> option A) pre o post v, f o = Some v -> calls_on d l = pre ++ o :: post -> Forall (fun o => f o = None) post -> told_last f d l v).
  { intros A f pre o post v Fo. unfold calls_on. revert pre. clear - Fo. induction l as [|[e y] m IH]; intros pre E Fp; [destruct pre; discriminate E|]. cbn [filter fst] in E. destruct (Nat.eqb_spec e d) as [->|Ne].
    - cbn [map snd] in E. destruct pre as [|z pre]; cbn [app] in E.
      + injection E as -> E. exists [], o, m. split; [reflexivity|]. split; [exact Fo|]. intros o' Ho. rewrite Forall_forall in Fp. apply Fp. rewrite <- E. apply in_map_iff. exists (d, o'). split; [reflexivity|]. apply filter_In. split; [exact Ho|apply Nat.eqb_refl].
      + injection E as -> E. destruct (IH pre E Fp) as (l1 & o' & l2 & -> & A1 & A2). exists ((d, z) :: l1), o', l2. auto.
    - destruct (IH pre E Fp) as (l1 & o' & l2 & -> & A1 & A2). exists ((e, y) :: l1), o', l2. auto. }
  assert (Kept : forall A (f : ncall -> option (option A)) pre o post v,
    f o = Some (Some v) -> calls_on d l = pre ++ o :: post -> Forall (fun o => forall u, f o = Some u -> exists u', u = Some u') post -> exists v', told_last f d l (Some v')).
  { intros A f pre o post v Fo. unfold calls_on. revert pre. clear - Fo. 
    assert (Later : forall m, Forall (fun o => forall u, f o = Some u -> exists u', u = Some u') (map snd (filter (fun x => fst x =? d) m)) -> (exists v', told_last f d m (Some v')) \/ told_never f d m).
    { induction m as [|[e y] m IH]; intros Fp; [right; intros o' []|]. cbn [filter fst] in Fp.
      assert (Fp' : Forall (fun o => forall u, f o = Some u -> exists u', u = Some u') (map snd (filter (fun x => fst x =? d) m))) by (destruct (e =? d); [inversion Fp; assumption|exact Fp]).
      destruct (IH Fp') as [(v' & l1 & o' & l2 & -> & A1 & A2)|Nv]; [left; exists v', ((e, y) :: l1), o', l2; auto|].
      destruct (Nat.eqb_spec e d) as [->|Ne].
      - cbn [map] in Fp. inversion Fp as [|? ? P1 _]; subst. cbn [snd] in P1. destruct (f y) as [u|] eqn:Fy.
        + destruct (P1 u eq_refl) as [u' ->]. left. exists u', [], y, m. auto.
        + right. intros o' [E|Ho]; [injection E as <-; exact Fy|exact (Nv _ Ho)].
      - right. intros o' [E|Ho]; [congruence|exact (Nv _ Ho)]. }
    induction l as [|[e y] m IH]; intros pre E Fp; [destruct pre; discriminate E|]. cbn [filter fst] in E. destruct (Nat.eqb_spec e d) as [->|Ne].
    - cbn [map snd] in E. destruct pre as [|z pre]; cbn [app] in E.
      + injection E as -> E. rewrite <- E in Fp. destruct (Later m Fp) as [(v' & l1 & o' & l2 & -> & A1 & A2)|Nv]; [exists v', ((d, o) :: l1), o', l2; auto|]. exists v, [], o, m. auto.
      + injection E as -> E. destruct (IH pre E Fp) as (v' & l1 & o' & l2 & -> & A1 & A2). exists v', ((d, z) :: l1), o', l2. auto.
    - destruct (IH pre E Fp) as (v' & l1 & o' & l2 & -> & A1 & A2). exists v', ((e, y) :: l1), o', l2. auto. }
  assert (Rq : Forall (fun o => forall u, tells_queue o = Some u -> exists u', u = Some u') rest) by (eapply Forall_impl; [|exact Kp]; intros o Ko u E; destruct o; try discriminate E; injection E as <-; destruct q0; [eauto|destruct Ko]).
  assert (Ru : Forall (fun o => forall u, tells_up o = Some u -> exists u', u = Some u') rest) by (eapply Forall_impl; [|exact Kp]; intros o Ko u E; destruct o; try discriminate E; injection E as <-; destruct cb0; [eauto|destruct Ko]).
  assert (Rm : Forall (fun o => forall u, tells_mac o = Some u -> exists u', u = Some u') rest) by (eapply Forall_impl; [|exact Kp]; intros o Ko u E; destruct o; try discriminate E; injection E as <-; destruct m; [eauto|destruct Ko]).
  assert (Rc : Forall (fun o => tells_channel o = None) rest) by (eapply Forall_impl; [|exact Kp]; intros o Ko; destruct o; try reflexivity; destruct Ko).
  assert (Got : (exists v, told_last tells_queue d l (Some v)) /\ (exists v, told_last tells_up d l (Some v)) /\ told_last tells_channel d l (Some c) /\ (cls d = GroundSta -> exists v, told_last tells_mac d l (Some v))).
  { destruct H as [(C & m & addr & E)|[(C & m & addr & E)|(C & E & _)]].
    - unfold made_ground, add_device in E. cbn [app] in E. repeat split.
      + refine (Kept _ tells_queue (NMacAttr (Some m) :: NAddress (mkGen mac_type addr) :: NNode (Some n) :: NIfIndex index :: NReceive (Some cb) :: []) (NQueue (Some q)) (NAttach (Some c) :: rest) q eq_refl E _). constructor; [discriminate|exact Rq].
      + refine (Kept _ tells_up (NMacAttr (Some m) :: NAddress (mkGen mac_type addr) :: NNode (Some n) :: NIfIndex index :: []) (NReceive (Some cb)) (NQueue (Some q) :: NAttach (Some c) :: rest) cb eq_refl E _). repeat (constructor; [discriminate|]). exact Ru.
      + refine (Last _ tells_channel (NMacAttr (Some m) :: NAddress (mkGen mac_type addr) :: NNode (Some n) :: NIfIndex index :: NReceive (Some cb) :: NQueue (Some q) :: []) (NAttach (Some c)) rest (Some c) eq_refl E Rc).
      + intros _. refine (Kept _ tells_mac [] (NMacAttr (Some m)) _ m eq_refl E _). repeat (constructor; [discriminate|]). exact Rm.
    - unfold made_sat, add_device in E. cbn [app] in E. repeat split.
      + refine (Kept _ tells_queue (NMacAttr (Some m) :: NNode (Some n) :: NIfIndex index :: NReceive (Some cb) :: NAddress (convert_to h sat_type addr) :: []) (NQueue (Some q)) (NAttach (Some c) :: rest) q eq_refl E _). constructor; [discriminate|exact Rq].
      + refine (Kept _ tells_up (NMacAttr (Some m) :: NNode (Some n) :: NIfIndex index :: []) (NReceive (Some cb)) _ cb eq_refl E _). repeat (constructor; [discriminate|]). exact Ru.
      + refine (Last _ tells_channel (NMacAttr (Some m) :: NNode (Some n) :: NIfIndex index :: NReceive (Some cb) :: NAddress (convert_to h sat_type addr) :: NQueue (Some q) :: []) (NAttach (Some c)) rest (Some c) eq_refl E Rc).
      + intros C'. congruence.
    - unfold made_side, add_device in E. cbn [app] in E. repeat split.
      + refine (Kept _ tells_queue (NNode (Some n) :: NIfIndex index :: NReceive (Some cb) :: []) (NQueue (Some q)) (NAttach (Some c) :: rest) q eq_refl E _). constructor; [discriminate|exact Rq].
      + refine (Kept _ tells_up (NNode (Some n) :: NIfIndex index :: []) (NReceive (Some cb)) _ cb eq_refl E _). repeat (constructor; [discriminate|]). exact Ru.
      + refine (Last _ tells_channel (NNode (Some n) :: NIfIndex index :: NReceive (Some cb) :: NQueue (Some q) :: []) (NAttach (Some c)) rest (Some c) eq_refl E Rc).
      + intros C'. congruence. }
  destruct Got as ((vq & Tq) & (vu & Tu) & Tc & Tm).
  pose proof (obj_last _ _ (set_queue h mac_type sat_type mob success) (keep_queue h mac_type sat_type mob success) d _ Tq) as Eq.
  pose proof (obj_last _ _ (set_up h mac_type sat_type mob success) (keep_up h mac_type sat_type mob success) d _ Tu) as Eu.
  pose proof (obj_last _ _ (set_channel h mac_type sat_type mob success) (keep_channel h mac_type sat_type mob success) d _ Tc) as Ec.
  split.
  - intros size room idle. unfold nd_send. fold (x d). rewrite Eq, Ec, class_kept. cbn [ptr]. destruct H as [(C & _)|[(C & _)|(C & _ & L2)]]; rewrite C.
    + destruct (Tm C) as [vm T]. rewrite (obj_last _ _ (set_macmodel h mac_type sat_type mob success) (keep_macmodel h mac_type sat_type mob success) d _ T). cbn [ptr]. destruct room, idle; reflexivity.
    + destruct room, idle; reflexivity.
    + destruct (device_channels c) as (_ & _ & _ & Lk). rewrite (proj2 Lk L2). cbn [rbind assert_]. destruct room, idle; reflexivity.
  - unfold nd_pass_up. rewrite Eu. cbn [ptr]. eauto.
Qed.
End Programs.
Print Assumptions device_settings.
Print Assumptions device_notices.
Print Assumptions device_retargets.
Print Assumptions device_passes_up.
Print Assumptions device_link_signalled_partial.
Print Assumptions device_channels.
Print Assumptions device_on_channel_partial.
Print Assumptions device_serves_partial.

(** * Cases *)

(** Devices 0 and 1 are on the ground, 2 and 3 look down, the others are inter-satellite ones; node 9 has no mobility model. *)
Definition some_cls (d : nat) : dclass := match d with 0 | 1 => GroundSta | 2 | 3 => SatDown | _ => SatSide end.
Definition some_mob (n : nat) : mobility := match n with 9 => NoMobility | 0 | 1 => OtherMobility | _ => Orbit end.
Notation some_run l := (nd_run LittleEndian 5 7 some_mob (Some (fun _ _ => true)) (nw_new some_cls) l).
Notation on d os := (map (pair d) os).
Definition station (d : nat) : program := on d (made_ground 5 (10 + d) d 0 (20 + d) [0; 0; 0; 0; 0; Z.of_nat d]%Z (30 + d) 0).
Definition looker (d : nat) : program := on d (made_sat LittleEndian 7 (10 + d) d 0 (20 + d) (sat_make LittleEndian 1 2 3) (30 + d) (Some 0)).
Definition side (d c : nat) : program := on d (made_side (2 + d mod 2) 1 (20 + d) (30 + d) c).
Definition all_of_them : program := (0, NOnChange 50) :: (0, NOnChange 51) :: station 0 ++ station 1 ++ looker 2 ++ side 4 0 ++ side 5 0 ++ [(0, NMtu 70000); (2, NMtu 9); (0, NRemoteAny (mkGen 0 [0; 1; 0; 2; 0; 3]%Z))].

Lemma all_of_them_is : all_of_them = ltac:(let l := eval vm_compute in all_of_them in exact l).
Proof. vm_compute. reflexivity. Qed.

Example device_settings_case : match some_run all_of_them with
  | Some (Ok (w, sg)) =>
      nd_number (nw_dev w 0) Mtu = Ok 4464%Z /\ nd_number (nw_dev w 1) Mtu = Ok 1500%Z /\ nd_number (nw_dev w 2) Mtu = Ok 9%Z /\
      nd_number (nw_dev w 0) IfIndex = Ok 0%Z /\ nd_number (nw_dev w 3) IfIndex = UB /\
      nd_address LittleEndian 5 7 (nw_dev w 1) = Ok (mkGen 5 [0; 0; 0; 0; 0; 1]%Z) /\ nd_address LittleEndian 5 7 (nw_dev w 2) = Ok (mkGen 7 [0; 1; 0; 2; 0; 3]%Z) /\
      nd_remote LittleEndian 7 (nw_dev w 0) = Some (Ok (mkGen 7 [0; 1; 0; 2; 0; 3]%Z)) /\ nd_remote LittleEndian 7 (nw_dev w 1) = Some (Ok (mkGen 7 [0; 0; 0; 0; 0; 0]%Z)) /\
      nd_object (nw_dev w 4) TxQueue = Some 34 /\ nd_object (nw_dev w 3) TxQueue = None /\
      (* the two inter-satellite devices cannot be told apart by their addresses *)
      nd_address LittleEndian 5 7 (nw_dev w 4) = nd_address LittleEndian 5 7 (nw_dev w 5)
  | _ => False end /\
  told_last tells_mtu 0 all_of_them 70000%Z /\ told_never tells_mtu 1 all_of_them /\ (forall d o, In (d, o) all_of_them -> bytes_given o) /\
  (* a satellite address is no address of a station, and one too long overruns *)
  some_run [(0, NAddress (mkGen 7 [0; 0; 0; 0; 0; 0]%Z))] = Some Assert /\ some_run [(0, NAddress (mkGen 0 [0; 0; 0; 0; 0; 0; 0]%Z))] = Some UB.
Proof.
  split; [vm_compute; repeat split|]. rewrite all_of_them_is. split; [|split; [|split; [|vm_compute; split; reflexivity]]].
  - match goal with |- told_last _ _ ?l _ => exists (removelast (removelast (removelast l))), (NMtu 70000), [(2, NMtu 9); (0, NRemoteAny (mkGen 0 [0; 1; 0; 2; 0; 3]%Z))] end.
    split; [reflexivity|]. split; [reflexivity|]. intros o' [H|[H|[]]]; [discriminate H|injection H as <-; reflexivity].
  - intros o H. cbn [In] in H. repeat (destruct H as [H|H]; [first [discriminate H|injection H as <-; reflexivity]|]). destruct H.
  - intros d o H. cbn [In] in H. repeat (destruct H as [H|H]; [injection H as <- <-; cbn [bytes_given ga_data]; try exact Logic.I; repeat constructor; unfold byte; lia|]). destruct H.
Qed.

Example device_notices_case : match some_run (all_of_them ++ [(1, NOnChange 52); (1, NAttach (Some 3)); (2, NAttach None)]) with
  | Some (Ok (w, sg)) => sg = [Changed 0 50; Changed 0 51; Retargeted 0 sat_default (sat_make LittleEndian 1 2 3); Changed 1 52] /\
      nd_link_up (nw_dev w 2) = false /\ gs_ground (nw_gs w 3) = [1] /\ gs_ground (nw_gs w 0) = [0; 1]
  | _ => False end.
Proof. vm_compute. repeat split. Qed.

(** Setting the channel as an attribute brings the link up, and nobody is told. *)
Theorem device_link_signalled_refuted : exists l w sg w2 s2 cb,
  some_run l = Some (Ok (w, sg)) /\ In (0, NOnChange cb) l /\ nd_step LittleEndian 5 7 some_mob (Some (fun _ _ => true)) w 0 (NChanAttr (Some 0)) = Some (Ok (w2, s2)) /\
  nd_link_up (nw_dev w 0) = false /\ nd_link_up (nw_dev w2 0) = true /\ s2 = [].
Proof. exists [(0, NOnChange 50)]. do 4 eexists. exists 50. split; [reflexivity|]. split; [left; reflexivity|]. split; [reflexivity|]. repeat split. Qed.

Example device_retargets_case : let a := sat_make LittleEndian 1 2 3 in let b := sat_make LittleEndian 1 2 4 in
  match some_run (all_of_them ++ [(0, NPromisc (Some 60)); (0, NRemote a); (0, NRemote b); (0, NRemoteAny (convert_to LittleEndian 7 b)); (1, NRemote a)]) with
  | Some (Ok (w, sg)) => filter (fun s => negb (is_change s)) sg = [Retargeted 0 (mkSat 0 0 0) a; Retargeted 0 a b; Retargeted 1 (mkSat 0 0 0) a] /\
      nd_pass_up (nw_dev w 0) = Ok [60; 20] /\ nd_pass_up (nw_dev w 1) = Ok [21]
  | _ => False end.
Proof. vm_compute. repeat split. Qed.

Example device_on_channel_case : attached_once all_of_them /\ match some_run all_of_them with
  | Some (Ok (w, sg)) => gs_ground (nw_gs w 0) = [0; 1] /\ ss_src (nw_ss w 0) = [4; 5] /\ nd_heard_by w 2 = [0; 1] /\ nd_heard_by w 4 = [5] /\ nd_heard_by w 5 = [4]
  | _ => False end /\
  (* a third end is refused *) some_run (all_of_them ++ side 6 0) = Some Assert.
Proof.
  split; [|vm_compute; repeat split]. split.
  - vm_compute. repeat constructor; cbn; intuition discriminate.
  - rewrite all_of_them_is. intros d c H. cbn [In] in H. repeat (destruct H as [H|H]; [discriminate H|]). destruct H.
Qed.

(** A device attached twice hears all twice; one attached elsewhere stays on the list it was on; a device whose channel was set as an
    attribute is on no list, and between satellites is taken for an end it is not. *)
Theorem device_on_channel_refuted :
  (exists w sg, some_run (station 0 ++ looker 2 ++ [(0, NAttach (Some 0))]) = Some (Ok (w, sg)) /\ nd_heard_by w 2 = [0; 0]) /\
  (exists w sg, some_run (station 0 ++ looker 2 ++ [(0, NAttach (Some 1))]) = Some (Ok (w, sg)) /\ nd_object (nw_dev w 0) Chan = Some 1 /\ nd_heard_by w 2 = [0]) /\
  (exists w sg, some_run (looker 2 ++ [(0, NChanAttr (Some 0))]) = Some (Ok (w, sg)) /\ nd_object (nw_dev w 0) Chan = Some 0 /\ nd_heard_by w 2 = []) /\
  (exists w sg, some_run (side 4 0 ++ side 5 0 ++ [(6, NChanAttr (Some 0))]) = Some (Ok (w, sg)) /\ nd_heard_by w 6 = [4] /\ nd_heard_by w 4 = [5] /\ ~ In 6 (ss_src (nw_ss w 0))) /\
  (exists w sg, some_run (side 4 0 ++ [(4, NAttach (Some 0))]) = Some (Ok (w, sg)) /\ nd_heard_by w 4 = [4]).
Proof.
  repeat split; (do 2 eexists; split; [vm_compute; reflexivity|]); vm_compute; repeat split; intuition discriminate.
Qed.

Example device_serves_case : match some_run (all_of_them ++ side 6 1) with
  | Some (Ok (w, sg)) =>
      calls_on 2 (all_of_them ++ side 6 1) = made_sat LittleEndian 7 12 2 0 22 (sat_make LittleEndian 1 2 3) 32 (Some 0) ++ [NMtu 9] /\
      nd_send w 0 1000 true true = Ok true /\ nd_send w 2 1000 false true = Ok false /\ nd_send w 4 1000 true true = Ok true /\
      nd_send w 6 1000 true true = Assert /\ nd_send w 3 1000 true true = UB /\ nd_pass_up (nw_dev w 4) = Ok [24] /\ nd_pass_up (nw_dev w 3) = UB
  | _ => False end.
Proof. vm_compute. repeat split. Qed.

(** Packets longer than the MTU of the device are accepted. *)
Theorem device_mtu_refuted : exists l w sg, some_run l = Some (Ok (w, sg)) /\ (forall d, In d [0; 2; 4] ->
  nd_number (nw_dev w d) Mtu = Ok 100%Z /\ nd_send w d 1500 true true = Ok true).
Proof.
  exists (all_of_them ++ [(0, NMtu 100); (2, NMtu 100); (4, NMtu 100)]). do 2 eexists. split; [vm_compute; reflexivity|]. intros d H. cbn [In] in H. destruct H as [<-|[<-|[<-|[]]]]; split; reflexivity.
Qed.
Print Assumptions device_link_signalled_refuted.
Print Assumptions device_on_channel_refuted.
Print Assumptions device_mtu_refuted.
