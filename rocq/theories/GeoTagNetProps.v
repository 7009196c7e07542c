(** C18 - C22. *)
From Coq Require Import ZArith List Lia Bool Arith.
From Verif Require Import Base SatAddrModel SatAddrProofs ConstellationModel ConstellationSpec
  ConstellationProofs ConstellationProps IslModel IslSpec IslProofs IslProps
  GeoTagModel GeoTagSpec GeoTagProofs GeoTagProps GeoTagRoute.
Import ListNotations.
Open Scope Z_scope.

(** C18.  [ctx n f] is the Interest as received by node [n] on face [f]: its tag names slot (q, j), it
    is not a suppressed retransmission and no face is excluded by scope; PIT records and times are
    arbitrary.  [nh n] is the forwarding table of [n], in any order. *)
Theorem geotag_delivery : forall h id P S adds c addrs ids links nh ctx cid p i src q j dst,
  is_u16 id -> id <> 0 -> Z.of_nat P <= 65536 -> Z.of_nat S <= 65536 ->
  run_adds h (con_new id P S) adds = Ok (c, addrs) -> length adds = (P * S)%nat ->
  NoDup (map dev_of adds) -> Forall (eq id) ids -> length ids = (P * S)%nat ->
  install_grid ids c = Ok links ->
  In (p, i, src) adds -> In (q, j, dst) adds ->
  (forall n f, In n (map dev_of adds) ->
     (In f (nh n) <-> f = GroundFace \/ exists k m, f = IslFace k /\ ends links k n m)) ->
  (forall n f, rq_tag (ctx n f) = Some (cid, Z.of_nat q, Z.of_nat j) /\
     rq_ingress (ctx n f) = f /\ rq_sup (ctx n f) <> SUPPRESS /\ forall g, rq_scope (ctx n f) g = false) ->
  exists path,
    Z.of_nat (length path) =
      ringdist (Z.of_nat P) (Z.of_nat p) (Z.of_nat q) + ringdist (Z.of_nat S) (Z.of_nat i) (Z.of_nat j) /\
    route links
      (fun n f => after_receive_interest (launched_net adds addrs links P S) h n (nh n) (ctx n f))
      src GroundFace path dst.
Proof.
  intros h id P S adds c addrs ids links nh ctx cid p i src q j dst Hid Hid0 HP HS R Full ND Ids Il Il' Hs Hd Hnh Hctx.
  pose proof (d_adm h id P S adds c addrs R) as Ad.
  assert (G : forall p i d, In (p, i, d) adds -> (p < P)%nat /\ (i < S)%nat).
  { intros a b d Hin. destruct Ad as [_ F]. rewrite Forall_forall in F. apply F in Hin. exact Hin. }
  destruct (G _ _ _ Hs) as [Hp Hi]. destruct (G _ _ _ Hd) as [Hq Hj].
  rewrite <- (d_placed_eq h id P S adds c addrs R _ _ _ Hs).
  rewrite <- (d_placed_eq h id P S adds c addrs R _ _ _ Hd).
  destruct (d_route h id P S adds c addrs ids links Hid Hid0 HP HS R Full ND Ids Il Il' nh ctx cid q j Hq Hj Hnh Hctx
     (Z.to_nat (d_dist P S q j (p, i))) p i GroundFace Hp Hi (or_introl eq_refl)) as (path & L & Rt).
  - rewrite Z2Nat.id; [reflexivity|]. unfold d_dist, griddist, zslot; cbn [fst snd].
    rewrite !ringdist_spec by lia. lia.
  - exists path. split; [|exact Rt]. rewrite L, Z2Nat.id; [reflexivity|].
    unfold d_dist, griddist, zslot; cbn [fst snd]. rewrite !ringdist_spec by lia. lia.
Qed.
Print Assumptions geotag_delivery.

(** Forwarding is deterministic: there is no other route. *)
Theorem route_unique : forall links handle n f path last path' last',
  route links handle n f path last -> route links handle n f path' last' -> path = path' /\ last = last'.
Proof.
  intros links handle n f path last path' last' R. revert path' last'.
  induction R as [n f H|n f k m path last H N E R IH]; intros path' last' R'; inversion R'; subst; auto; try congruence.
  assert (k0 = k) by congruence. subst k0.
  assert (m0 = m) by (destruct E as [E|E], H2 as [E2|E2]; congruence). subst m0.
  destruct (IH _ _ H3) as [-> ->]. auto.
Qed.

(** A 3 by 4 constellation, from (0,0) to (2,2): three hops. *)
Definition ex_adds := map (fun x => (fst x, snd x, 10 * fst x + snd x)%nat) (slots 3 4).
Definition ex_net : result (network * list (nat * nat)) :=
  do (c, addrs) <- run_adds LittleEndian (con_new 7 3 4) ex_adds ;
  do links <- install_grid (repeat 7 12) c ;
  Ok (launched_net ex_adds addrs links 3 4, links).
Definition ex_faces (links : list (nat * nat)) (n : nat) : list face :=
  GroundFace :: map (fun d => IslFace (isl_chan d)) (devices_of n (install_pairs 0 links)).
Definition ex_ctx (tag : Z * Z * Z) (f : face) : request :=
  mkReq (Some tag) f NEW (fun _ => None) (fun _ => false) 0.
Fixpoint ex_walk (fuel : nat) (nw : network) (n : nat) (f : face) (tag : Z * Z * Z) : list nat :=
  match fuel with
  | O => []
  | S k =>
      n :: match after_receive_interest nw LittleEndian n (ex_faces (nw_links nw) n) (ex_ctx tag f) with
           | Ok [SendInterest (IslFace e)] =>
               match nth_error (nw_links nw) e with
               | Some (a, b) => ex_walk k nw (if Nat.eqb a n then b else a) (IslFace e) tag
               | None => []
               end
           | Ok [SendInterest GroundFace] => [999]%nat
           | _ => []
           end
  end.
Example delivery_case :
  match ex_net with Ok (nw, _) => ex_walk 10 nw 0 GroundFace (7, 2, 2) = [0; 20; 21; 22; 999]%nat | _ => False end.
Proof. vm_compute. reflexivity. Qed.

(** * C19 *)
Lemma eligible_may_use : forall rq f, eligible rq f = true <-> may_use rq f.
Proof.
  intros rq f. unfold eligible, may_use. rewrite andb_true_iff, !negb_true_iff.
  destruct (face_eqb_spec f (rq_ingress rq)), f; cbn [ad_hoc negb andb]; intuition congruence.
Qed.
Lemma eligible_may_not : forall rq f, eligible rq f = false <-> ~ may_use rq f.
Proof. intros. rewrite <- eligible_may_use. destruct (eligible rq f); intuition congruence. Qed.
Lemma unused_spec : forall rq f, eligible_unused rq f = true <-> unused rq f.
Proof.
  intros rq f. unfold eligible_unused, unused. rewrite andb_true_iff, eligible_may_use.
  destruct (rq_out rq f) as [[a b]|].
  - rewrite Z.leb_le. split; intros [H K]; split; auto. intros ? ? E; inversion E; subst; auto. eapply K; eauto.
  - split; intros [H K]; split; auto. discriminate.
Qed.

(** Every handling of an Interest ends in one of three ways. *)
Theorem one_reaction : forall nw h self nexthops rq acts,
  after_receive_interest nw h self nexthops rq = Ok acts ->
  (acts = [] /\ (rq_sup rq = SUPPRESS \/
     (rq_sup rq = FORWARD /\ ~ steered rq /\ forall f, In f nexthops -> ~ may_use rq f))) \/
  (rq_sup rq <> SUPPRESS /\ exists f, acts = [SendInterest f] /\ In f nexthops /\ may_use rq f) \/
  (rq_sup rq <> SUPPRESS /\ acts = [SendNoRouteNack (rq_ingress rq); RejectPendingInterest]).
Proof.
  intros nw h self nexthops rq acts H. unfold after_receive_interest in H.
  assert (Geo : forall plane pindex, rq_sup rq <> SUPPRESS ->
    match nw_addr nw self with
    | None => UB
    | Some this =>
        do it <- rfind (face_matches nw h self (get_target (nw_planes nw) (nw_size nw) plane pindex (get_plane h this) (get_index h this))
                  (get_plane h this) (get_index h this)) (filter (eligible rq) nexthops) ;
        Ok (send_or_nack rq it)
    end = Ok acts ->
    (rq_sup rq <> SUPPRESS /\ exists f, acts = [SendInterest f] /\ In f nexthops /\ may_use rq f) \/
    (rq_sup rq <> SUPPRESS /\ acts = [SendNoRouteNack (rq_ingress rq); RejectPendingInterest])).
  { intros plane pindex Ns E. destruct (nw_addr nw self) as [this|]; [|discriminate].
    destruct (rfind _ _) as [[f|]| | |] eqn:Ef in E; simpl in E; try discriminate; inversion E; subst.
    - left. split; auto. exists f. apply rfind_some in Ef. destruct Ef as (Hin & _).
      apply filter_In in Hin. rewrite <- eligible_may_use. tauto.
    - right. auto. }
  destruct (rq_sup rq) eqn:Es.
  - right. destruct (rq_tag rq) as [[[co pl] ix]|], (has_net_device (rq_ingress rq));
      try (apply (Geo pl ix); [discriminate|exact H]);
      (inversion H; subst; destruct (find (eligible rq) nexthops) as [f|] eqn:Ef; [left|right; split; [congruence|reflexivity]];
       apply find_some in Ef; rewrite eligible_may_use in Ef; split; [congruence|]; exists f; tauto).
  - assert (Best : ~ steered rq ->
      match find (eligible_unused rq) nexthops with
      | Some f => Ok [SendInterest f]
      | None => do e <- earliest rq None nexthops ;
                match e with Some (f, _) => Ok [SendInterest f] | None => Ok [] end
      end = Ok acts ->
      (acts = [] /\ (FORWARD = SUPPRESS \/
       (FORWARD = FORWARD /\ ~ steered rq /\ forall f, In f nexthops -> ~ may_use rq f))) \/
      (FORWARD <> SUPPRESS /\ exists f, acts = [SendInterest f] /\ In f nexthops /\ may_use rq f) \/
      (FORWARD <> SUPPRESS /\ acts = [SendNoRouteNack (rq_ingress rq); RejectPendingInterest])).
    { intros Ng E. destruct (find (eligible_unused rq) nexthops) as [f|] eqn:Ef.
      - right; left. split; [discriminate|]. inversion E; subst. exists f. apply find_some in Ef.
        rewrite unused_spec in Ef. unfold unused in Ef. tauto.
      - destruct (earliest_spec rq nexthops None) as (r & Er & Hr).
        { intros f Hf He. pose proof (find_none _ _ Ef f Hf) as X. unfold eligible_unused in X.
          rewrite He in X. destruct (rq_out rq f); [discriminate|]. discriminate. }
        rewrite Er in E. cbn [rbind] in E. destruct r as [[f t]|]; inversion E; subst.
        + right; left. split; [discriminate|]. exists f.
          destruct Hr as [[X _]|(pre & post & x & -> & X & _)]; [discriminate|].
          split; [reflexivity|]. split; [apply in_app_iff; simpl; auto|]. apply eligible_may_use; auto.
        + left. split; [reflexivity|]. right. split; [reflexivity|]. split; [exact Ng|].
          intros f Hf. apply eligible_may_not. destruct Hr as [_ Hr]. auto. }
    destruct (rq_tag rq) as [[[co pl] ix]|] eqn:Et.
    + destruct (has_net_device (rq_ingress rq)) eqn:Eh.
      * right. apply (Geo pl ix); [discriminate|exact H].
      * apply Best; [|exact H]. unfold steered. rewrite Eh. intros [_ X]; discriminate.
    + apply Best; [|exact H]. unfold steered. rewrite Et. intros [X _]; congruence.
  - left. inversion H; auto.
Qed.
Print Assumptions one_reaction.

Lemma face_matches_lies : forall nw h self t p i f a, 0 < nw_planes nw -> 0 < nw_size nw ->
  sat_address_of nw self f = Ok a ->
  exists r, face_matches nw h self t p i f = Ok r /\
    (r = true <-> lies (nw_planes nw) (nw_size nw) t (p, i) (get_plane h a, get_index h a)).
Proof.
  intros nw h self t p i f a HP HS E. unfold face_matches, lies, towards. rewrite E. cbn [rbind fst snd].
  destruct t.
  - eexists. split; [reflexivity|]. rewrite andb_true_iff, !Z.eqb_eq. split; [intros []; congruence|intros X; inversion X; auto].
  - rewrite cmod_pos by lia. eexists. split; [reflexivity|]. apply Z.eqb_eq.
  - rewrite cmod_pos by lia. cbn [rbind]. rewrite prev_mod' by lia. eexists. split; [reflexivity|]. apply Z.eqb_eq.
  - destruct (Z.eqb_spec (get_plane h a) p) as [->|N].
    + rewrite cmod_pos by lia. eexists. split; [reflexivity|]. rewrite Z.eqb_eq. split; [congruence|intros X; inversion X; auto].
    + exists false. split; [reflexivity|]. split; [discriminate|]. intros X; inversion X; congruence.
  - destruct (Z.eqb_spec (get_plane h a) p) as [->|N].
    + rewrite cmod_pos by lia. cbn [rbind]. rewrite prev_mod' by lia. eexists. split; [reflexivity|].
      rewrite Z.eqb_eq. split; [congruence|intros X; inversion X; auto].
    + exists false. split; [reflexivity|]. split; [discriminate|]. intros X; inversion X; congruence.
Qed.

(** All usable next hops are inter-satellite or ground faces of a launched network. *)
Definition all_known (nw : network) (self : nat) (rq : request) (nexthops : list face) : Prop :=
  forall f, In f nexthops -> may_use rq f -> exists a, sat_address_of nw self f = Ok a.

(** A steered Interest goes to the first usable next hop in its direction, and is Nacked exactly when
    there is none. *)
Theorem steered_reaction : forall nw h self own nexthops rq co tp ti,
  0 < nw_planes nw -> 0 < nw_size nw -> nw_addr nw self = Some own ->
  rq_sup rq <> SUPPRESS -> rq_tag rq = Some (co, tp, ti) -> has_net_device (rq_ingress rq) = true ->
  all_known nw self rq nexthops ->
  let x := (get_plane h own, get_index h own) in
  let t := get_target (nw_planes nw) (nw_size nw) tp ti (fst x) (snd x) in
  let good f := may_use rq f /\ exists a, sat_address_of nw self f = Ok a /\
                 lies (nw_planes nw) (nw_size nw) t x (get_plane h a, get_index h a) in
  exists acts, after_receive_interest nw h self nexthops rq = Ok acts /\
  (acts = [SendNoRouteNack (rq_ingress rq); RejectPendingInterest] <-> forall f, In f nexthops -> ~ good f) /\
  (forall f, acts = [SendInterest f] <-> first_with good nexthops f).
Proof.
  intros nw h self own nexthops rq co tp ti HP HS Ho Su Tg Hd K x t good.
  assert (M : forall f, In f nexthops -> eligible rq f = true ->
     exists r, face_matches nw h self t (fst x) (snd x) f = Ok r /\ (r = true <-> good f)).
  { intros f Hf He. apply eligible_may_use in He. destruct (K f Hf He) as (a & Ea).
    destruct (face_matches_lies nw h self t (fst x) (snd x) f a HP HS Ea) as (r & Er & Hr).
    exists r. split; auto. rewrite Hr. unfold good. split.
    - intros L. split; auto. exists a. auto.
    - intros [_ (a' & Ea' & L)]. rewrite Ea in Ea'. inversion Ea'; subst. exact L. }
  assert (Eq : after_receive_interest nw h self nexthops rq =
    (do it <- rfind (face_matches nw h self t (fst x) (snd x)) (filter (eligible rq) nexthops) ;
     Ok (send_or_nack rq it))).
  { unfold after_receive_interest. rewrite Tg, Hd, Ho. destruct (rq_sup rq); congruence || reflexivity. }
  assert (F : exists it, rfind (face_matches nw h self t (fst x) (snd x)) (filter (eligible rq) nexthops) = Ok it /\
     match it with
     | None => forall f, In f nexthops -> ~ good f
     | Some f => first_with good nexthops f
     end).
  { clear Eq K. induction nexthops as [|g l IH]; cbn [filter rfind].
    - exists None. split; [reflexivity|]. intros f [].
    - destruct IH as (it & E & Hit); [intros; apply M; simpl; auto|].
      assert (Skip : ~ good g -> forall it0, match it0 with
         | None => forall f, In f l -> ~ good f | Some f => first_with good l f end ->
         match it0 with None => forall f, g = f \/ In f l -> ~ good f | Some f => first_with good (g :: l) f end).
      { intros Ng [f|] H.
        - destruct H as (pre & post & -> & H1 & H2). exists (g :: pre), post. simpl.
          split; [reflexivity|]. split; [exact H1|]. intros y [<-|Hy]; auto.
        - intros f [<-|Hf]; auto. }
      destruct (eligible rq g) eqn:Eg; cbn [rfind].
      + destruct (M g (or_introl eq_refl) Eg) as (r & Er & Hr). rewrite Er. cbn [rbind].
        destruct r.
        * exists (Some g). split; [reflexivity|]. exists [], l. simpl. split; [reflexivity|].
          split; [apply Hr; reflexivity|intros y []].
        * exists it. split; auto. apply Skip; auto. intros G. apply Hr in G. discriminate.
      + exists it. split; auto. apply Skip; auto. intros [G _]. apply eligible_may_use in G. congruence. }
  destruct F as (it & E & Hit). rewrite Eq, E. cbn [rbind]. eexists. split; [reflexivity|].
  destruct it as [f|]; cbn [send_or_nack].
  - split.
    + split; [discriminate|]. intros H. apply first_with_in in Hit. destruct Hit as [Hf Gf]. exfalso. eapply H; eauto.
    + intros g. split; [intros X; inversion X; subst; auto|]. intros Hg.
      destruct Hit as (pre & post & E1 & G1 & N1). destruct Hg as (pre2 & post2 & E2 & G2 & N2).
      f_equal. f_equal. subst nexthops. clear - E2 G1 N1 G2 N2. revert pre2 E2 N2.
      induction pre as [|a pre IH]; intros [|b pre2] E2 N2; simpl in *; inversion E2; subst; auto.
      * exfalso. eapply N2; eauto. 
      * exfalso. eapply N1; eauto.
      * eapply IH; eauto.
  - split.
    + split; auto.
    + intros g. split; [discriminate|]. intros Hg. apply first_with_in in Hg. destruct Hg as [Hg Gg].
      exfalso. eapply Hit; eauto.
Qed.
Print Assumptions steered_reaction.

(** On a 3 by 4 grid the request meets the hypotheses; the Nack is for the face it came from. *)
Example steered_case :
  match ex_net with
  | Ok (nw, links) =>
      after_receive_interest nw LittleEndian 0 [IslFace 0; IslFace 1] (ex_ctx (7, 2, 2) GroundFace) =
        Ok [SendNoRouteNack GroundFace; RejectPendingInterest] /\
      after_receive_interest nw LittleEndian 0 (ex_faces links 0) (ex_ctx (7, 0, 3) GroundFace) =
        Ok [SendInterest (IslFace 6)] /\
      after_receive_interest nw LittleEndian 0 (ex_faces links 0) (ex_ctx (7, 0, 0) GroundFace) =
        Ok [SendInterest GroundFace]
  | _ => False
  end.
Proof. vm_compute. auto. Qed.

(** * C20 *)
Theorem best_route : forall nw h self nexthops rq, ~ steered rq -> rq_sup rq <> SUPPRESS ->
  exists acts, after_receive_interest nw h self nexthops rq = Ok acts /\
  (rq_sup rq = NEW ->
     (exists f, acts = [SendInterest f] /\ first_with (may_use rq) nexthops f) \/
     ((forall f, In f nexthops -> ~ may_use rq f) /\
      acts = [SendNoRouteNack (rq_ingress rq); RejectPendingInterest])) /\
  (rq_sup rq = FORWARD ->
     (exists f, acts = [SendInterest f] /\ first_with (unused rq) nexthops f) \/
     ((forall f, In f nexthops -> ~ unused rq f) /\
      (exists f t x, acts = [SendInterest f] /\ In f nexthops /\ may_use rq f /\ rq_out rq f = Some (t, x) /\
         forall g t' x', In g nexthops -> may_use rq g -> rq_out rq g = Some (t', x') -> t <= t')) \/
     ((forall f, In f nexthops -> ~ may_use rq f) /\ acts = [])).
Proof.
  intros nw h self nexthops rq Ns Su.
  assert (Eq : after_receive_interest nw h self nexthops rq =
    match rq_sup rq with
    | NEW => Ok (send_or_nack rq (find (eligible rq) nexthops))
    | _ => match find (eligible_unused rq) nexthops with
           | Some f => Ok [SendInterest f]
           | None => do e <- earliest rq None nexthops ;
                     match e with Some (f, _) => Ok [SendInterest f] | None => Ok [] end
           end
    end).
  { unfold after_receive_interest, steered in *.
    destruct (rq_sup rq); [| |congruence];
      destruct (rq_tag rq) as [[[? ?] ?]|]; try reflexivity;
      destruct (has_net_device (rq_ingress rq)); try reflexivity;
      exfalso; apply Ns; split; congruence. }
  assert (FW : forall (pb : face -> bool) (pp : face -> Prop) f, (forall g, pb g = true <-> pp g) ->
     find pb nexthops = Some f -> first_with pp nexthops f).
  { intros pb pp f Hp Hf. apply find_first in Hf. destruct Hf as (pre & post & E & H1 & H2).
    exists pre, post. split; auto. split; [apply Hp; auto|]. intros y Hy X. apply (H2 y Hy). apply Hp; auto. }
  rewrite Eq. destruct (rq_sup rq) eqn:Es; [| |congruence].
  - eexists. split; [reflexivity|]. split; [|discriminate]. intros _.
    destruct (find (eligible rq) nexthops) as [f|] eqn:Ef.
    + left. exists f. split; [reflexivity|]. eapply FW; [|exact Ef]. apply eligible_may_use.
    + right. split; [|reflexivity]. intros f Hf. apply eligible_may_not. eapply find_none; eauto.
  - destruct (find (eligible_unused rq) nexthops) as [f|] eqn:Ef.
    + eexists. split; [reflexivity|]. split; [discriminate|]. intros _. left. exists f. split; [reflexivity|].
      eapply FW; [|exact Ef]. apply unused_spec.
    + destruct (earliest_spec rq nexthops None) as (r & Er & Hr).
      { intros f Hf He. pose proof (find_none _ _ Ef f Hf) as X. unfold eligible_unused in X.
        rewrite He in X. destruct (rq_out rq f); discriminate. }
      rewrite Er. cbn [rbind].
      assert (Nu : forall f, In f nexthops -> ~ unused rq f).
      { intros f Hf U. apply unused_spec in U. rewrite (find_none _ _ Ef f Hf) in U. discriminate. }
      destruct r as [[f t]|].
      * eexists. split; [reflexivity|]. split; [discriminate|]. intros _. right; left. split; [exact Nu|].
        destruct Hr as [[X _]|(pre & post & x & -> & X & Y & H1 & H2 & _)]; [discriminate|].
        exists f, t, x. split; [reflexivity|]. split; [apply in_app_iff; simpl; auto|].
        split; [apply eligible_may_use; auto|]. split; [exact Y|].
        intros g t' x' Hg Mg Og. apply eligible_may_use in Mg. apply in_app_iff in Hg. simpl in Hg.
        destruct Hg as [Hg|[<-|Hg]]; [specialize (H1 g t' x' Hg Mg Og); lia | rewrite Y in Og; inversion Og; lia | eauto].
      * eexists. split; [reflexivity|]. split; [discriminate|]. intros _. right; right. split; [|reflexivity].
        intros f Hf. apply eligible_may_not. destruct Hr; auto.
Qed.
Print Assumptions best_route.

Example best_route_case :
  let out f := match f with IslFace 0 => Some (5, 100) | IslFace 1 => Some (3, 100) | _ => None end in
  after_receive_interest (mkNet (fun _ => None) [] 1 1) LittleEndian 0 [IslFace 0; IslFace 1]
    (mkReq None (OtherFace 0) FORWARD out (fun _ => false) 50) = Ok [SendInterest (IslFace 1)] /\
  after_receive_interest (mkNet (fun _ => None) [] 1 1) LittleEndian 0 [IslFace 0; IslFace 1; IslFace 2]
    (mkReq None (OtherFace 0) FORWARD out (fun _ => false) 50) = Ok [SendInterest (IslFace 2)] /\
  after_receive_interest (mkNet (fun _ => None) [] 1 1) LittleEndian 0 [IslFace 0; IslFace 1]
    (mkReq None (OtherFace 0) NEW out (fun _ => false) 50) = Ok [SendInterest (IslFace 0)].
Proof. vm_compute. auto. Qed.

(** * C21 *)
(** Full statement: on a launched satellite no forwarding table leads to undefined behaviour. *)
Definition any_table_is_safe : Prop := forall nw h self own nexthops rq,
  0 < nw_planes nw -> 0 < nw_size nw -> nw_addr nw self = Some own ->
  after_receive_interest nw h self nexthops rq <> UB.

Theorem any_table_is_safe_refuted : ~ any_table_is_safe.
Proof.
  intros H.
  apply (H (mkNet (fun _ => Some (sat_make LittleEndian 1 0 0)) [] 1 1) LittleEndian 0%nat
           (sat_make LittleEndian 1 0 0) [OtherFace 0] (ex_ctx (1, 0, 0) GroundFace)); reflexivity.
Qed.
Print Assumptions any_table_is_safe_refuted.

(** Exactly which tables are dangerous.  The strategy reaches the null device if and only if a usable face
    without a satellite device comes before the first usable face in the wanted direction.  Faces of channels
    with both ends attached to launched satellites are assumed. *)
Theorem any_table_partial : forall nw h self own nexthops rq co tp ti,
  0 < nw_planes nw -> 0 < nw_size nw -> nw_addr nw self = Some own ->
  rq_sup rq <> SUPPRESS -> rq_tag rq = Some (co, tp, ti) -> has_net_device (rq_ingress rq) = true ->
  (forall f, In f nexthops -> has_net_device f = true -> exists a, sat_address_of nw self f = Ok a) ->
  let x := (get_plane h own, get_index h own) in
  let t := get_target (nw_planes nw) (nw_size nw) tp ti (fst x) (snd x) in
  (after_receive_interest nw h self nexthops rq = UB <->
   exists pre n post, nexthops = pre ++ OtherFace n :: post /\ may_use rq (OtherFace n) /\
     forall f, In f pre -> may_use rq f -> exists a, sat_address_of nw self f = Ok a /\
       ~ lies (nw_planes nw) (nw_size nw) t x (get_plane h a, get_index h a)) /\
  (after_receive_interest nw h self nexthops rq <> UB ->
   exists acts, after_receive_interest nw h self nexthops rq = Ok acts).
Proof.
  intros nw h self own nexthops rq co tp ti HP HS Ho Su Tg Hd K x t.
  assert (Eq : after_receive_interest nw h self nexthops rq =
    (do it <- rfind (face_matches nw h self t (fst x) (snd x)) (filter (eligible rq) nexthops) ;
     Ok (send_or_nack rq it))).
  { unfold after_receive_interest. rewrite Tg, Hd, Ho. destruct (rq_sup rq); congruence || reflexivity. }
  rewrite Eq. clear Eq.
  assert (G : (rfind (face_matches nw h self t (fst x) (snd x)) (filter (eligible rq) nexthops) = UB <->
     exists pre n post, nexthops = pre ++ OtherFace n :: post /\ may_use rq (OtherFace n) /\
     forall f, In f pre -> may_use rq f -> exists a, sat_address_of nw self f = Ok a /\
       ~ lies (nw_planes nw) (nw_size nw) t x (get_plane h a, get_index h a)) /\
     (rfind (face_matches nw h self t (fst x) (snd x)) (filter (eligible rq) nexthops) = UB \/
      exists it, rfind (face_matches nw h self t (fst x) (snd x)) (filter (eligible rq) nexthops) = Ok it)).
  { induction nexthops as [|g l IH]; cbn [filter rfind].
    - split; [|eauto]. split; [discriminate|]. intros (pre & n & post & E & _). destruct pre; discriminate.
    - destruct IH as [IH1 IH2]; [intros; apply K; simpl; auto|].
      assert (Skip : (forall a, sat_address_of nw self g = Ok a -> may_use rq g ->
                        ~ lies (nw_planes nw) (nw_size nw) t x (get_plane h a, get_index h a)) ->
        (may_use rq g -> has_net_device g = true) ->
        ((exists pre n post, l = pre ++ OtherFace n :: post /\ may_use rq (OtherFace n) /\
          forall f, In f pre -> may_use rq f -> exists a, sat_address_of nw self f = Ok a /\
          ~ lies (nw_planes nw) (nw_size nw) t x (get_plane h a, get_index h a)) <->
        (exists pre n post, g :: l = pre ++ OtherFace n :: post /\ may_use rq (OtherFace n) /\
          forall f, In f pre -> may_use rq f -> exists a, sat_address_of nw self f = Ok a /\
          ~ lies (nw_planes nw) (nw_size nw) t x (get_plane h a, get_index h a)))).
      { intros Nl Dg. split.
        - intros (pre & n & post & -> & U & F). exists (g :: pre), n, post. split; [reflexivity|]. split; auto.
          intros f [<-|Hf] Uf; [|auto]. destruct (K g (or_introl eq_refl) (Dg Uf)) as (a & Ea).
          exists a. split; auto.
        - intros (pre & n & post & E & U & F). destruct pre as [|g' pre]; inversion E; subst.
          + specialize (Dg U). discriminate.
          + exists pre, n, post. split; [reflexivity|]. split; auto. intros f Hf. apply F. right; auto. }
      destruct (eligible rq g) eqn:Eg; cbn [rfind].
      + pose proof (proj1 (eligible_may_use rq g) Eg) as Ug.
        destruct (has_net_device g) eqn:Dg.
        * destruct (K g (or_introl eq_refl) Dg) as (a & Ea).
          destruct (face_matches_lies nw h self t (fst x) (snd x) g a HP HS Ea) as (r & Er & Hr).
          rewrite Er. cbn [rbind]. destruct r.
          -- split; [|eauto]. split; [discriminate|]. intros (pre & n & post & E & U & F).
             destruct pre as [|g' pre]; inversion E; subst; [discriminate Dg|].
             destruct (F g' (or_introl eq_refl) Ug) as (a' & Ea' & Nl). rewrite Ea in Ea'.
             inversion Ea'; subst. exfalso. apply Nl. apply Hr. reflexivity.
          -- split; [|exact IH2]. rewrite <- Skip; [exact IH1| |auto].
             intros a' Ea' _ L. rewrite Ea in Ea'. inversion Ea'; subst. apply Hr in L. discriminate.
        * destruct g; try discriminate Dg. split; [|left; reflexivity].
          split; [|intros; reflexivity]. intros _. exists [], n, l. simpl. repeat split; try apply Ug. intros ? [].
      + split; [|exact IH2].
        assert (Ng : ~ may_use rq g) by (apply eligible_may_not; auto).
        rewrite <- Skip; [exact IH1| |]; intros; contradiction. }
  destruct G as [G1 G2]. split.
  - rewrite <- G1. destruct G2 as [->|(it & ->)]; cbn [rbind]; [tauto|]. split; discriminate.
  - destruct G2 as [->|(it & ->)]; cbn [rbind]; [congruence|eauto].
Qed.
Print Assumptions any_table_partial.

(** * C22 *)
(** Full statement: on a launched grid, an Interest whose tag is outside the grid is forwarded only a
    bounded number of times by the strategy. *)
Definition outside_tag_rejected : Prop :=
  forall h id P S adds c addrs ids links nh ctx cid tp ti src,
  is_u16 id -> id <> 0 -> run_adds h (con_new id P S) adds = Ok (c, addrs) ->
  length adds = (P * S)%nat -> NoDup (map dev_of adds) -> Forall (eq id) ids -> length ids = (P * S)%nat ->
  install_grid ids c = Ok links -> In src (map dev_of adds) ->
  0 <= tp < 65536 -> 0 <= ti < 65536 -> ~ in_grid (Z.of_nat P) (Z.of_nat S) (tp, ti) ->
  (forall n f, In n (map dev_of adds) ->
     (In f (nh n) <-> f = GroundFace \/ exists k m, f = IslFace k /\ ends links k n m)) ->
  (forall n f, rq_tag (ctx n f) = Some (cid, tp, ti) /\
     rq_ingress (ctx n f) = f /\ rq_sup (ctx n f) <> SUPPRESS /\ forall g, rq_scope (ctx n f) g = false) ->
  exists bound, forall k, travels links
      (fun n f => after_receive_interest (launched_net adds addrs links P S) h n (nh n) (ctx n f))
      src GroundFace k -> (k <= bound)%nat.

Definition ring3 : list (nat * nat * nat) := [(0, 0, 0); (1, 0, 1); (2, 0, 2)]%nat.
Definition ring3_links : list (nat * nat) := [(0, 1); (1, 2); (2, 0)]%nat.
Definition ring3_nh (n : nat) : list face :=
  match n with
  | 0 => [GroundFace; IslFace 0; IslFace 2]
  | 1 => [GroundFace; IslFace 0; IslFace 1]
  | 2 => [GroundFace; IslFace 1; IslFace 2]
  | _ => []
  end%nat.

Definition ring3_addrs : list sat_address := map (fun p => sat_make LittleEndian 1 p 0) [0; 1; 2].
Definition ring3_handle (n : nat) (f : face) : result (list action) :=
  after_receive_interest (launched_net ring3 ring3_addrs ring3_links 3 1) LittleEndian n (ring3_nh n)
    (ex_ctx (1, 10, 0) f).

Lemma ring3_circulates : forall k,
  (forall f, f = GroundFace \/ f = IslFace 0 -> travels ring3_links ring3_handle 0 f k) /\
  travels ring3_links ring3_handle 2 (IslFace 2) k /\
  travels ring3_links ring3_handle 1 (IslFace 1) k.
Proof.
  induction k as [|k (IH0 & IH2 & IH1)].
  - repeat split; intros; constructor.
  - split; [|split].
    + intros f Hf. apply travels_S with (k := 2%nat) (m := 2%nat); [|right; reflexivity|exact IH2].
      destruct Hf; subst; vm_compute; reflexivity.
    + apply travels_S with (k := 1%nat) (m := 1%nat); [vm_compute; reflexivity|right; reflexivity|exact IH1].
    + apply travels_S with (k := 0%nat) (m := 0%nat); [vm_compute; reflexivity|right; reflexivity|].
      apply IH0. auto.
Qed.

Theorem outside_tag_rejected_refuted : ~ outside_tag_rejected.
Proof.
  intros H.
  destruct (run_adds LittleEndian (con_new 1 3 1) ring3) as [[c addrs]| | |] eqn:E; try discriminate E.
  assert (addrs = ring3_addrs) by (vm_compute in E; inversion E; reflexivity). subst addrs.
  assert (B : exists bound, forall k, travels ring3_links ring3_handle 0 GroundFace k -> (k <= bound)%nat).
  { apply (H LittleEndian 1 3%nat 1%nat ring3 c ring3_addrs [1; 1; 1] ring3_links ring3_nh
     (fun _ f => ex_ctx (1, 10, 0) f) 1 10 0 0%nat).
    - unfold is_u16; lia.
    - lia.
    - exact E.
    - reflexivity.
    - repeat constructor; simpl; intuition lia.
    - repeat constructor.
    - reflexivity.
    - vm_compute in E. inversion E; subst. vm_compute. reflexivity.
    - simpl; auto.
    - lia.
    - lia.
    - unfold in_grid; simpl. lia.
    - intros n f Hn. unfold ends, ring3_links. simpl in Hn.
      split.
      + destruct Hn as [<-|[<-|[<-|[]]]]; simpl; intros [<-|[<-|[<-|[]]]]; auto;
          (right; eexists; eexists; split; [reflexivity|]; simpl; first [left; reflexivity|right; reflexivity]).
      + intros [->|(k & m & -> & Hk)].
        * destruct Hn as [<-|[<-|[<-|[]]]]; simpl; auto.
        * destruct k as [|[|[|k]]]; simpl in Hk;
            destruct Hn as [<-|[<-|[<-|[]]]], Hk as [Hk|Hk]; try discriminate Hk; simpl; auto 6;
            destruct k; discriminate.
    - intros n f. repeat split; discriminate. }
  destruct B as (bound & B).
  destruct (ring3_circulates (S bound)) as (C & _). specialize (B (S bound) (C _ (or_introl eq_refl))). lia.
Qed.
Print Assumptions outside_tag_rejected_refuted.

(** What does hold: in a constellation with at least two planes of at least two satellites, a satellite sends
    a steered Interest to the ground only if the tag is its own address; a tag outside the grid is never
    delivered to anybody.  (NFD's own loop detection, not the strategy, ends the circulation.) *)
Theorem outside_tag_partial : forall nw h self own nexthops rq co tp ti,
  2 <= nw_planes nw -> 2 <= nw_size nw -> nw_addr nw self = Some own ->
  in_grid (nw_planes nw) (nw_size nw) (get_plane h own, get_index h own) ->
  rq_tag rq = Some (co, tp, ti) -> has_net_device (rq_ingress rq) = true ->
  after_receive_interest nw h self nexthops rq = Ok [SendInterest GroundFace] ->
  (tp, ti) = (get_plane h own, get_index h own).
Proof.
  intros nw h self own nexthops rq co tp ti HP HS Ho [G1 G2] Tg Hd E. cbn [fst snd] in G1, G2.
  unfold after_receive_interest in E. rewrite Tg, Hd, Ho in E.
  set (t := get_target _ _ _ _ _ _) in E.
  assert (E' : (do it <- rfind (face_matches nw h self t (get_plane h own) (get_index h own)) (filter (eligible rq) nexthops) ;
     Ok (send_or_nack rq it)) = Ok [SendInterest GroundFace]) by (destruct (rq_sup rq); congruence || exact E).
  clear E. destruct (rfind _ _) as [[f|]| | |] eqn:Ef in E'; cbn in E'; try discriminate.
  inversion E'; subst f. apply rfind_some in Ef. destruct Ef as (_ & M & _).
  unfold face_matches, sat_address_of, remote_node in M. cbn [rbind] in M. rewrite Ho in M. cbn [rbind] in M.
  assert (T : t = SEND_TO_GROUND).
  { destruct t; [reflexivity| | | |]; exfalso.
    - rewrite cmod_pos in M by lia. inversion M as [X]. apply Z.eqb_eq in X. rewrite next_mod in X by auto.
      destruct (Z.eqb_spec (get_plane h own + 1) (nw_planes nw)); lia.
    - rewrite cmod_pos in M by lia. inversion M as [X]. apply Z.eqb_eq in X. rewrite prev_mod in X by auto.
      destruct (Z.eqb_spec (get_plane h own) 0); lia.
    - rewrite Z.eqb_refl, cmod_pos in M by lia. inversion M as [X]. apply Z.eqb_eq in X. rewrite next_mod in X by auto.
      destruct (Z.eqb_spec (get_index h own + 1) (nw_size nw)); lia.
    - rewrite Z.eqb_refl, cmod_pos in M by lia. inversion M as [X]. apply Z.eqb_eq in X. rewrite prev_mod in X by auto.
      destruct (Z.eqb_spec (get_index h own) 0); lia. }
  unfold t in T. rewrite get_target_forward in T.
  destruct (Z.eqb_spec tp (get_plane h own)); [|destruct (forward _ _ _); discriminate].
  destruct (Z.eqb_spec ti (get_index h own)); [congruence|destruct (forward _ _ _); discriminate].
Qed.
Print Assumptions outside_tag_partial.
