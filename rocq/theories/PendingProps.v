(** One name at one node: how often it is asked for, where it goes, who gets the Data and the Nacks. *)
From Coq Require Import ZArith List Bool Lia.
From Verif Require Import Base SatAddrModel ConstellationModel GeoTagModel GeoTagSpec GeoTagProofs GeoTagNetProps PendingModel PendingSpec PendingProofs.
Import ListNotations.
Open Scope Z_scope.

Ltac bounds := apply ordered_in_order; reflexivity.

Definition three : network := launched_net ring3 ring3_addrs ring3_links 3 1.
Definition free (f : face) : bool := false.
(** Node 0 of a ring of three planes, one satellite each. *)
Definition node0 := pit_run three LittleEndian 0%nat (ring3_nh 0) free None.

(** *** C106: how often *)

(** The k-th Interest for a name after the first leaves at least 10 + 20 + 40 + 80 + 160 + 250 + 250 … ms after it. *)
Definition resend_rate : Prop := forall nw h self nexthops scope ops s tr,
  pit_run nw h self nexthops scope None ops = Ok (s, tr) -> in_order ops ->
  (forall o, In o ops -> match o with Ask _ _ _ life => 0 < life | Answer _ _ => True | Refuse _ _ _ => False end) -> wanted tr ->
  forall k t0 t, nth_error (sent_at tr) 0 = Some t0 -> nth_error (sent_at tr) k = Some t -> t0 + ms (least_time k) <= t.

(** It holds if Interests live 250 ms or more. *)
Theorem resend_rate_partial : forall nw h self nexthops scope ops s tr,
  pit_run nw h self nexthops scope None ops = Ok (s, tr) -> in_order ops -> Forall patient ops -> wanted tr ->
  forall k t0 t, nth_error (sent_at tr) 0 = Some t0 -> nth_error (sent_at tr) k = Some t -> t0 + ms (least_time k) <= t.
Proof. intros nw h self nexthops scope ops s tr R O P W k t0 t H0 Hk. exact (proj1 (rate_run _ _ _ _ _ _ _ _ R O P W) k t t0 H0 Hk). Qed.
Print Assumptions resend_rate_partial.

(** Eight consumers' Interests, each as early as it can be: the bound is met with equality. *)
Definition eager : list pop := map (fun t => Ask (ms t) GroundFace (Some (1, 1, 0)) (ms 4000)) [0; 5; 10; 30; 69; 70; 150; 310; 560].
Example resend_case : Forall patient eager /\ in_order eager /\
  exists s tr, node0 eager = Ok (s, tr) /\ wanted tr /\
    sent_at tr = map ms (map least_time [0; 1; 2; 3; 4; 5; 6]%nat) /\ map least_time [0; 1; 2; 3; 4; 5; 6]%nat = [0; 10; 30; 70; 150; 310; 560].
Proof.
  split; [repeat constructor; cbn; unfold ms; lia|]. split; [bounds|].
  eexists. eexists. split; [vm_compute; reflexivity|]. split; [|split; reflexivity].
  apply (wanted_check [GroundFace]). vm_compute. reflexivity.
Qed.

(** A short-lived Interest first: the second leaves 2 ms after the first. *)
Theorem resend_rate_refuted : ~ resend_rate.
Proof.
  intros H.
  set (ops := [Ask 0 GroundFace (Some (1, 1, 0)) (ms 1); Ask 500000 (IslFace 2) (Some (1, 1, 0)) (ms 4000);
               Ask (ms 2) GroundFace (Some (1, 1, 0)) (ms 4000)]).
  specialize (H three LittleEndian 0%nat (ring3_nh 0) free ops).
  destruct (pit_run three LittleEndian 0%nat (ring3_nh 0) free None ops) as [[s tr]| | |] eqn:R; vm_compute in R; try discriminate R.
  injection R as <- <-.
  assert (K : 0 + ms (least_time 1) <= ms 2).
  { eapply H; [reflexivity| | | |reflexivity|reflexivity].
    - bounds.
    - intros o [<-|[<-|[<-|[]]]]; unfold ms; lia.
    - apply (wanted_check [GroundFace; IslFace 2]). vm_compute. reflexivity. }
  vm_compute in K. congruence.
Qed.
Print Assumptions resend_rate_refuted.

(** *** C107: steering by the tag *)

Section Steering.
Variable nw : network.
Variable h : host.
Variable self : dev.
Variable nexthops : list face.
Variable scope : face -> bool.

(** A next hop that the Interest may take and that lies in the direction of the tag. *)
Definition leads (own : sat_address) (tag : Z * Z * Z) (f g : face) : Prop :=
  open_to scope f g /\ exists a, sat_address_of nw self g = Ok a /\
    lies (nw_planes nw) (nw_size nw)
      (get_target (nw_planes nw) (nw_size nw) (snd (fst tag)) (snd tag) (get_plane h own) (get_index h own))
      (get_plane h own, get_index h own) (get_plane h a, get_index h a).
End Steering.

(** Every tagged Interest leaves by the first next hop in its direction, or is refused if there is none. *)
Definition every_tag_steers : Prop := forall nw h self own nexthops scope ops s tr t f tag life,
  0 < nw_planes nw -> 0 < nw_size nw -> nw_addr nw self = Some own -> has_net_device f = true -> 0 < life ->
  (forall g, In g nexthops -> open_to scope f g -> exists a, sat_address_of nw self g = Ok a) ->
  pit_run nw h self nexthops scope None ops = Ok (s, tr) -> in_order (ops ++ [Ask t f (Some tag) life]) ->
  exists s' ev, pit_step nw h self nexthops scope s (Ask t f (Some tag) life) = Ok (s', ev) /\
    (forall g, ev = [ASent g (Some tag)] <-> first_with (leads nw h self scope own tag f) nexthops g) /\
    (In AClosed ev <-> forall g, In g nexthops -> ~ leads nw h self scope own tag f g).

(** It does if nothing was sent for the name in the last 250 ms. *)
Theorem every_tag_steers_partial : forall nw h self own nexthops scope ops s tr t f tag life,
  0 < nw_planes nw -> 0 < nw_size nw -> nw_addr nw self = Some own -> has_net_device f = true ->
  (forall g, In g nexthops -> open_to scope f g -> exists a, sat_address_of nw self g = Ok a) ->
  pit_run nw h self nexthops scope None ops = Ok (s, tr) ->
  (forall x, In x (sent_at tr) -> x <= t - ms 250) ->
  exists s' ev, pit_step nw h self nexthops scope s (Ask t f (Some tag) life) = Ok (s', ev) /\
    (forall g, ev = [ASent g (Some tag)] <-> first_with (leads nw h self scope own tag f) nexthops g) /\
    (In AClosed ev <-> forall g, In g nexthops -> ~ leads nw h self scope own tag f g).
Proof.
  intros nw h self own nexthops scope ops s tr t f [[co tp] ti] life HP HS Ho Hd K R Q.
  pose proof (not_suppressed scope tr s t f life (out_run _ _ _ _ _ _ _ _ R) Q) as Ns.
  destruct (steered_reaction nw h self own nexthops
     (request_of scope t f (Some (co, tp, ti)) (retx_decide t (asked t s f life))) co tp ti HP HS Ho Ns eq_refl Hd) as (acts & A & N & S1).
  { intros g Hg M. apply K; assumption. }
  destruct (pit_step nw h self nexthops scope s (Ask t f (Some (co, tp, ti)) life)) as [[s' ev]| | |] eqn:St.
  2-4: (rewrite ask_step in St; rewrite A in St; discriminate).
  exists s', ev. split; [reflexivity|]. pose proof (ask_cases _ _ _ _ _ _ _ _ _ _ _ _ St) as C.
  rewrite ask_step, A in St. cbn [rbind] in St. injection St as St.
  pose proof (one_reaction _ _ _ _ _ _ A) as O.
  destruct (retx_decide t (asked t s f life)) as [sup e] eqn:De. cbn [fst snd] in *. unfold request_of in *. cbn [rq_sup rq_ingress fst snd] in *.
  assert (Lead : forall g, leads nw h self scope own (co, tp, ti) f g <->
     may_use (request_of scope t f (Some (co, tp, ti)) (sup, e)) g /\ exists a, sat_address_of nw self g = Ok a /\
       lies (nw_planes nw) (nw_size nw) (get_target (nw_planes nw) (nw_size nw) tp ti (get_plane h own) (get_index h own))
         (get_plane h own, get_index h own) (get_plane h a, get_index h a)) by (intros g; reflexivity).
  split.
  - intros g. split.
    + intros ->. apply S1. destruct O as [(-> & [O|(_ & O & _)])|[(_ & g' & -> & _)|(_ & ->)]].
      * congruence.
      * exfalso. apply O. split; [discriminate|exact Hd].
      * cbn in St. injection St as _ Eg. rewrite Eg. reflexivity.
      * destruct C as [(_ & C & _)|[(g' & _ & _ & _ & Cs)|(_ & _ & C)]]; [discriminate| |destruct (ad_hoc f); discriminate].
        exfalso. cbn [do_acts one_act] in St. destruct (out_nack e f no_route). injection St as St _. congruence.
    + intros H. assert (acts = [SendInterest g]) by (apply S1; exact H). subst acts. cbn in St. injection St as _ <-. reflexivity.
  - split.
    + intros H. apply N. destruct O as [(-> & _)|[(_ & g' & -> & _)|(_ & ->)]]; [| |reflexivity].
      * cbn in St. injection St as _ <-. destruct H.
      * cbn in St. injection St as _ <-. destruct H as [H|[]]. discriminate.
    + intros H. apply N in H. subst acts. cbn [do_acts one_act] in St. destruct (out_nack e f no_route) as [e1 v1].
      injection St as _ <-. apply in_or_app. right. cbn. auto.
Qed.
Print Assumptions every_tag_steers_partial.

(** Two consumers, 250 ms apart, with tags of different planes: each is steered by its own. *)
Example steers_case :
  exists s tr, node0 [Ask 0 GroundFace (Some (1, 1, 0)) (ms 4000)] = Ok (s, tr) /\
    (forall x, In x (sent_at tr) -> x <= ms 250 - ms 250) /\
    exists s1 s2, pit_step three LittleEndian 0%nat (ring3_nh 0) free None (Ask 0 GroundFace (Some (1, 1, 0)) (ms 4000)) = Ok (s1, [ASent (IslFace 0) (Some (1, 1, 0))]) /\
      pit_step three LittleEndian 0%nat (ring3_nh 0) free s (Ask (ms 250) GroundFace (Some (1, 2, 0)) (ms 4000)) = Ok (s2, [ASent (IslFace 2) (Some (1, 2, 0))]).
Proof.
  eexists. eexists. split; [vm_compute; reflexivity|]. split; [intros x [<-|[]]; vm_compute; discriminate|]. eexists. eexists. split; vm_compute; reflexivity.
Qed.

(** 5 ms apart: the second Interest, for another satellite, goes nowhere. *)
Theorem every_tag_steers_refuted : ~ every_tag_steers.
Proof.
  intros H.
  destruct (pit_run three LittleEndian 0%nat (ring3_nh 0) free None [Ask 0 GroundFace (Some (1, 1, 0)) (ms 4000)]) as [[s tr]| | |] eqn:R;
    vm_compute in R; try discriminate R.
  destruct (H three LittleEndian 0%nat (sat_make LittleEndian 1 0 0) (ring3_nh 0) free [Ask 0 GroundFace (Some (1, 1, 0)) (ms 4000)] s tr (ms 5) GroundFace (1, 2, 0) (ms 4000))
    as (s' & ev & St & S1 & N).
  - reflexivity.
  - reflexivity.
  - reflexivity.
  - reflexivity.
  - reflexivity.
  - intros g [<-|[<-|[<-|[]]]] _; eexists; vm_compute; reflexivity.
  - vm_compute. exact R.
  - bounds.
  - injection R as <- <-. vm_compute in St. injection St as _ <-.
    assert (K : forall g, In g (ring3_nh 0) -> ~ leads three LittleEndian 0 free (sat_make LittleEndian 1 0 0) (1, 2, 0) GroundFace g).
    { intros g Hg L. assert (F : exists g', first_with (leads three LittleEndian 0 free (sat_make LittleEndian 1 0 0) (1, 2, 0) GroundFace) (ring3_nh 0) g').
      { clear -L Hg. exists (IslFace 2). exists [GroundFace; IslFace 0], []. split; [reflexivity|]. split.
        - split; [split; [left; discriminate|reflexivity]|]. eexists. split; vm_compute; reflexivity.
        - intros y [<-|[<-|[]]] [_ (a & Ea & La)]; vm_compute in Ea; injection Ea as <-; vm_compute in La; congruence. }
      destruct F as (g' & F). apply S1 in F. discriminate. }
    apply N in K. destruct K.
Qed.
Print Assumptions every_tag_steers_refuted.

(** *** C108: the Data *)

(** Data goes, once each, to exactly the faces that wait for it, but not back over a link it came from. *)
Theorem data_to_all_waiting : forall nw h self nexthops scope ops s tr t f,
  pit_run nw h self nexthops scope None ops = Ok (s, tr) -> in_order (ops ++ [Answer t f]) ->
  exists ev, pit_step nw h self nexthops scope s (Answer t f) = Ok (None, ev) /\ NoDup ev /\
    forall v, In v ev <-> exists g, v = AData g /\ waits tr t g /\ (g <> f \/ g = GroundFace).
Proof.
  intros nw h self nexthops scope ops s tr t f R O.
  destruct (inv_run _ _ _ _ _ _ _ _ R) with (t := t) as (now & Ln & I).
  - intros a x b y c E. apply (O a x b y (c ++ [Answer t f])). rewrite E, <- app_assoc. cbn. rewrite <- app_assoc. reflexivity.
  - intros o Ho. apply in_split in Ho. destruct Ho as (a & b & ->). apply (O a o b (Answer t f) []). rewrite <- app_assoc. reflexivity.
  - apply (inv_later _ _ _ _ I) in Ln. cbn [pit_step]. destruct (at_time t s) as [e|].
    + destruct Ln as (D & _ & Re). eexists. split; [reflexivity|]. split.
      * unfold data_to. clear Re. induction (e_in e) as [|[g x] l IH]; cbn; [constructor|]. inversion D as [|? ? Ng D']; subst.
        destruct ((t <? x) && negb (face_eqb g f && negb (ad_hoc f))); cbn; [constructor|]; auto.
        intros K. apply Ng. apply in_map_iff in K. destruct K as ([g' x'] & E & K). cbn in E. injection E as ->. apply filter_In in K.
        apply in_map_iff. exists (g, x'). tauto.
      * intros v. unfold data_to. rewrite in_map_iff.
        assert (C : forall g, negb (face_eqb g f && negb (ad_hoc f)) = true <-> g <> f \/ g = GroundFace).
        { intros g. destruct (face_eqb g f) eqn:E.
          - apply same_face in E. subst g. destruct f; cbn; intuition congruence.
          - cbn. split; [|reflexivity]. intros _. left. intros ->. rewrite face_refl in E. discriminate. }
        split.
        -- intros ([g x] & <- & H). apply filter_In in H. cbn [fst snd] in H. rewrite andb_true_iff, C, Z.ltb_lt in H. destruct H as (Hin & Hx & Hc).
           exists g. split; [reflexivity|]. split; [|exact Hc]. apply (in_of _ _ _ D) in Hin. exists x. split; [|exact Hx].
           destruct (Re g) as [E|(E & _)]; congruence.
        -- intros (g & -> & (x & Hx & Lx) & Hc). exists (g, x). split; [reflexivity|]. apply filter_In. cbn [fst snd].
           rewrite andb_true_iff, C, Z.ltb_lt. split; [|auto]. apply of_in.
           destruct (Re g) as [E|(_ & y & Ey & Ly)]; [congruence|]. rewrite Hx in Ey. injection Ey as <-. lia.
    + exists []. split; [reflexivity|]. split; [constructor|]. intros v. split; [intros []|].
      intros (g & -> & (x & Hx & Lx) & _). cbn in Ln. apply Ln in Hx. lia.
Qed.
Print Assumptions data_to_all_waiting.

(** A consumer on the ground and a neighbour ask, the neighbour's Interest suppressed; a third has given up: the first two get the Data. *)
Example data_case : exists s tr,
  node0 [Ask 0 (OtherFace 4) None (ms 3); Ask (ms 1) GroundFace (Some (1, 1, 0)) (ms 100); Ask (ms 2) (IslFace 2) (Some (1, 1, 0)) (ms 100)] = Ok (s, tr) /\
  waits tr (ms 60) GroundFace /\ waits tr (ms 60) (IslFace 2) /\ ~ waits tr (ms 60) (OtherFace 4) /\
  pit_step three LittleEndian 0%nat (ring3_nh 0) free s (Answer (ms 60) (IslFace 0)) = Ok (None, [AData GroundFace; AData (IslFace 2)]) /\
  pit_step three LittleEndian 0%nat (ring3_nh 0) free s (Answer (ms 60) GroundFace) = Ok (None, [AData GroundFace; AData (IslFace 2)]) /\
  pit_step three LittleEndian 0%nat (ring3_nh 0) free s (Answer (ms 60) (IslFace 2)) = Ok (None, [AData GroundFace]).
Proof.
  eexists. eexists. split; [vm_compute; reflexivity|]. split; [eexists; split; [vm_compute; reflexivity|reflexivity]|].
  split; [eexists; split; [vm_compute; reflexivity|reflexivity]|]. split; [intros (x & Hx & L); vm_compute in Hx; injection Hx as <-; vm_compute in L; discriminate|].
  repeat split.
Qed.

(** *** C109: Nacks *)

(** All upstreams have answered by Nacks: every waiting neighbour gets one, with the least severe reason; nobody on the ground does,
    and the entry is gone. *)
Theorem nacks_to_all_links : forall nw h self nexthops scope ops s tr t f reason s' ev,
  pit_run nw h self nexthops scope None ops = Ok (s, tr) -> in_order (ops ++ [Refuse t f reason]) ->
  wanted (tr ++ [(Refuse t f reason, ev)]) -> tr <> [] ->
  pit_step nw h self nexthops scope s (Refuse t f reason) = Ok (s', ev) ->
  ad_hoc f = false -> upstream tr f <> None -> (forall g, g <> f -> upstream tr g <> Some None) ->
  exists r, least_reason (fun y => y = reason \/ exists g, g <> f /\ upstream tr g = Some (Some y)) r /\
    s' = None /\ In AClosed ev /\
    (forall g, waits tr t g -> g <> GroundFace -> In (ANacked g r) ev) /\
    (forall g r', In (ANacked g r') ev -> r' = r /\ g <> GroundFace).
Proof.
  intros nw h self nexthops scope ops s tr t f reason s' ev R O W Ne St Ah Hf Hg.
  assert (Or : in_order ops).
  { intros a x b y c E. apply (O a x b y (c ++ [Refuse t f reason])). rewrite E, <- app_assoc. cbn. rewrite <- app_assoc. reflexivity. }
  assert (Ww : wanted tr).
  { intros a x b E. apply (W a x (b ++ [(Refuse t f reason, ev)])). rewrite E, <- app_assoc. reflexivity. }
  destruct (inv_run _ _ _ _ _ _ _ _ R Or t) as (now & Ln & I).
  { intros o Ho. apply in_split in Ho. destruct Ho as (a & b & ->). apply (O a o b (Refuse t f reason) []). rewrite <- app_assoc. reflexivity. }
  destruct (W tr (Refuse t f reason, ev) [] eq_refl Ne) as (gw & yw & Hw & Lw). cbn [fst pop_time] in Lw.
  pose proof (inv_later _ _ _ _ I Ln) as J. cbn [pit_step] in St.
  destruct (at_time t s) as [e|] eqn:At; [|cbn in J; apply J in Hw; lia].
  apply at_some in At. destruct (up_run _ _ _ _ _ _ _ _ R Or Ww e At) as [D U]. rewrite Ah in St.
  destruct (record_of f (e_out e)) as [r0|] eqn:Rf; [|exfalso; apply Hf; rewrite <- U, Rf; reflexivity].
  set (e1 := mkE (e_in e) _ _ _) in *.
  assert (All : forall g r, In (g, r) (e_out e1) -> exists y, o_nack r = Some y /\ ((g = f /\ y = reason) \/ (g <> f /\ upstream tr g = Some (Some y)))).
  { intros g r H. apply in_of in H; [|apply put_nodup, D]. unfold e1 in H. cbn [e_out] in H. rewrite put_of in H.
    destruct (face_eqb f g) eqn:F.
    - apply same_face in F. injection H as <-. exists reason. split; [reflexivity|]. left. auto.
    - assert (N : g <> f) by (intros ->; rewrite face_refl in F; discriminate). pose proof (U g) as Ug. rewrite H in Ug. cbn in Ug.
      destruct (o_nack r) as [y|]; [|symmetry in Ug; destruct (Hg g N Ug)]. exists y. split; [reflexivity|]. right. auto. }
  assert (Fl : filter (fun r : face * orec => match o_nack (snd r) with None => true | Some _ => false end) (e_out e1) = []).
  { destruct (filter _ (e_out e1)) as [|[g r] l] eqn:F; [reflexivity|]. assert (H : In (g, r) ((g, r) :: l)) by (left; reflexivity).
    rewrite <- F in H. apply filter_In in H. destruct H as [H K]. destruct (All _ _ H) as (y & E & _). cbn in K. rewrite E in K. discriminate. }
  assert (So : still_out t e1 = false).
  { destruct (still_out t e1) eqn:S; [|reflexivity]. apply existsb_exists in S. destruct S as ([g r] & H & K). destruct (All _ _ H) as (y & E & _).
    cbn [snd] in K. rewrite E, andb_false_r in K. discriminate. }
  destruct (process_nack e1) as [e2 v] eqn:P. rewrite So in St. injection St as <- <-. unfold process_nack in P. rewrite Fl in P.
  destruct J as (Di & _ & Re). exists (least_severe (e_out e1)).
  pose proof (out_nacks_events _ _ _ _ _ Di P) as Ev. split.
  - pose proof (least_spec scope (e_out e1) 0) as L. cbn zeta in L. fold (least_severe (e_out e1)) in L.
    assert (Q : forall y, (exists g r, In (g, r) (e_out e1) /\ o_nack r = Some y) <-> (y = reason \/ exists g, g <> f /\ upstream tr g = Some (Some y))).
    { intros y. split.
      - intros (g & r & H & E). destruct (All _ _ H) as (y' & E' & C). rewrite E in E'. injection E' as <-. destruct C as [[_ C]|C]; [left; exact C|right; exists g; exact C].
      - intros [->|(g & N & Ug)].
        + exists f, (mkO (o_renewed r0) (o_expiry r0) (Some reason)). split; [apply put_here|reflexivity].
        + rewrite <- U in Ug. destruct (record_of g (e_out e)) as [r|] eqn:Rg; [|discriminate]. cbn in Ug. injection Ug as Ug.
          exists g, r. split; [|exact Ug]. apply of_in. unfold e1. cbn [e_out]. rewrite put_of. destruct (face_eqb f g) eqn:F; [|exact Rg].
          apply same_face in F. congruence. }
    destruct L as [(A & B & C)|(A & B)].
    + left. split; [apply Q; destruct A as [A|A]; [contradiction|exact A]|]. split; [exact B|]. intros y Hy. apply C. right. apply Q, Hy.
    + right. split; [exact A|]. intros y Hy. apply B. right. apply Q, Hy.
  - split; [reflexivity|]. split; [apply in_or_app; right; cbn; auto|]. split.
    + intros g (x & Hx & Lx) Ng. apply in_or_app. left. apply Ev. exists g. split; [reflexivity|].
      assert (Rg : record_of g (e_in e1) = Some x).
      { destruct (Re g) as [E|(_ & y & Ey & Ly)]; [cbn; congruence|]. rewrite Hx in Ey. injection Ey as <-. lia. }
      split; [apply in_map_iff; exists (g, x); split; [reflexivity|apply of_in, Rg]|]. split; [destruct g; cbn; congruence|congruence].
    + intros g r' H. apply in_app_or in H. destruct H as [H|[H|[]]]; [|discriminate]. apply Ev in H. destruct H as (g' & E & _ & A & _).
      injection E as -> ->. split; [reflexivity|]. intros ->. discriminate.
Qed.
Print Assumptions nacks_to_all_links.

(** Asked two ways for a consumer on the ground; a local application waits too.  The first Nack changes nothing, the second closes the
    entry with the lesser reason; the application is told, the consumer on the ground is not. *)
Definition two_ways : list pop :=
  [Ask 0 GroundFace (Some (1, 1, 0)) (ms 4000); Ask (ms 10) GroundFace (Some (1, 2, 0)) (ms 4000);
   Ask (ms 12) (OtherFace 4) None (ms 4000); Refuse (ms 60) (IslFace 0) 50].
Example nacks_case : exists s tr ev,
  node0 two_ways = Ok (s, tr) /\ in_order (two_ways ++ [Refuse (ms 70) (IslFace 2) 150]) /\
  wanted (tr ++ [(Refuse (ms 70) (IslFace 2) 150, ev)]) /\
  upstream tr (IslFace 0) = Some (Some 50) /\ upstream tr (IslFace 2) = Some None /\
  waits tr (ms 70) GroundFace /\ waits tr (ms 70) (OtherFace 4) /\
  pit_step three LittleEndian 0%nat (ring3_nh 0) free s (Refuse (ms 70) (IslFace 2) 150) = Ok (None, ev) /\
  ev = [ANacked (OtherFace 4) 50; AClosed].
Proof.
  eexists. eexists. eexists. split; [vm_compute; reflexivity|]. split; [bounds|].
  split; [apply (wanted_check [GroundFace]); vm_compute; reflexivity|]. split; [reflexivity|]. split; [reflexivity|].
  split; [eexists; split; [vm_compute; reflexivity|reflexivity]|]. split; [eexists; split; [vm_compute; reflexivity|reflexivity]|].
  split; [vm_compute; reflexivity|reflexivity].
Qed.

(** As documented: with no usable next hop, everyone waiting gets a Nack with the reason NoRoute. *)
Definition no_route_to_all : Prop := forall nw h self nexthops scope ops s tr t f tag life s' ev,
  pit_run nw h self nexthops scope None ops = Ok (s, tr) -> in_order (ops ++ [Ask t f tag life]) -> 0 < life ->
  pit_step nw h self nexthops scope s (Ask t f tag life) = Ok (s', ev) -> In AClosed ev ->
  forall g, g = f \/ waits tr t g -> In (ANacked g no_route) ev.

(** Only the one who asked last does, if a link leads there; the others are dropped, and the Data that comes is for nobody. *)
Theorem no_route_to_all_partial : forall nw h self nexthops scope s t f tag life s' ev,
  pit_step nw h self nexthops scope s (Ask t f tag life) = Ok (s', ev) -> In AClosed ev ->
  ev = (if ad_hoc f then [AClosed] else [ANacked f no_route; AClosed]) /\
  forall t' f', pit_step nw h self nexthops scope s' (Answer t' f') = Ok (None, []).
Proof.
  intros nw h self nexthops scope s t f tag life s' ev St C. apply ask_cases in St. destruct (retx_decide _ _) as [sup e].
  destruct St as [(_ & -> & _)|[(g & _ & _ & -> & _)|(_ & -> & ->)]]; [destruct C|destruct C as [C|[]]; discriminate|].
  split; reflexivity.
Qed.
Print Assumptions no_route_to_all_partial.

(** A consumer on the ground asked for plane 1 and would have had its Data 30 ms later.  Meanwhile a neighbour sends an Interest for
    the same name with a plane that does not exist, for which this node has no next hop: the consumer's Interest is dropped with it.
    The neighbour does send it here. *)
Definition ruined : list pop := [Ask 0 GroundFace (Some (1, 1, 0)) (ms 4000)].
Example no_route_case : exists s tr s',
  node0 ruined = Ok (s, tr) /\ waits tr (ms 20) GroundFace /\
  pit_step three LittleEndian 0%nat (ring3_nh 0) free s (Ask (ms 20) (IslFace 2) (Some (1, 3, 0)) (ms 4000)) =
    Ok (s', [ANacked (IslFace 2) no_route; AClosed]) /\
  pit_step three LittleEndian 0%nat (ring3_nh 0) free s' (Answer (ms 30) (IslFace 0)) = Ok (None, []) /\
  pit_step three LittleEndian 0%nat (ring3_nh 0) free s (Answer (ms 30) (IslFace 0)) = Ok (None, [AData GroundFace]) /\
  exists s2, pit_step three LittleEndian 2%nat (ring3_nh 2) free None (Ask (ms 19) GroundFace (Some (1, 3, 0)) (ms 4000)) =
    Ok (s2, [ASent (IslFace 2) (Some (1, 3, 0))]).
Proof.
  eexists. eexists. eexists. split; [vm_compute; reflexivity|]. split; [eexists; split; [vm_compute; reflexivity|reflexivity]|].
  repeat (split; [vm_compute; reflexivity|]). eexists. vm_compute. reflexivity.
Qed.

Theorem no_route_to_all_refuted : ~ no_route_to_all.
Proof.
  intros H. destruct no_route_case as (s & tr & s' & R & W & St & _).
  assert (K : In (ANacked GroundFace no_route) [ANacked (IslFace 2) no_route; AClosed]).
  { refine (H _ _ _ _ _ ruined s tr (ms 20) (IslFace 2) (Some (1, 3, 0)) (ms 4000) s' _ R _ _ St _ GroundFace (or_intror W)).
    - bounds.
    - reflexivity.
    - cbn. auto. }
  destruct K as [K|[K|[]]]; discriminate.
Qed.
Print Assumptions no_route_to_all_refuted.
