(** Relaying, for any strategy that brings Interests nearer to where they go. *)
From Coq Require Import ZArith List Lia Bool Arith Permutation Sorted.
From Verif Require Import Base SatAddrModel DeviceModel DeviceSpec DeviceProofs ChannelModel LinkModel LinkSpec LinkProofs LinkDevices
  IslNetSpec IslNetProps IslCount FaceModel FaceSpec FaceProofs FaceNetSpec FaceDownProps FaceIslProps IslModel GeoTagModel RelayModel RelaySpec RelayFaces.
Import ListNotations.
Open Scope Z_scope.

(** ** One call *)
Lemma deliver_quiet : forall S N (up : N -> option (Z * nat * Z * Z)) ndn ns (w : fworld S), (forall n, In n ns -> up n = None) -> deliver up ndn w ns = Ok (w, map FNote ns).
Proof.
  intros S N up ndn. induction ns as [|n ns IH]; intros w H; [reflexivity|]. cbn [deliver]. rewrite (H n (or_introl eq_refl)).
  rewrite IH by (intros; apply H; right; assumption). reflexivity.
Qed.
Lemma deliver_net : forall S N (up : N -> option (Z * nat * Z * Z)) ndn ns (w w' : fworld S) out, deliver up ndn w ns = Ok (w', out) ->
  fw_net w' = fw_net w /\ forall t r b, In (FGot t r b) out -> exists n u p, In n ns /\ up n = Some (t, r, u, p).
Proof.
  intros S N up ndn. induction ns as [|n ns IH]; intros w w' out D; cbn [deliver] in D; [injection D as <- <-; split; [reflexivity|intros t r b []]|].
  assert (Quiet : forall w1 out1, deliver up ndn w ns = Ok (w1, out1) -> fw_net w1 = fw_net w /\
    forall t r b, In (FGot t r b) (FNote n :: out1) -> exists n0 u p, In n0 (n :: ns) /\ up n0 = Some (t, r, u, p)).
  { intros w1 out1 D1. destruct (IH _ _ _ D1) as [A B]. split; [exact A|]. intros t r b [H|H]; [discriminate|].
    destruct (B t r b H) as (m & u & p & Hm & U). exists m, u, p. split; [right; exact Hm|exact U]. }
  destruct (up n) as [[[[t r] u] p]|] eqn:U.
  - destruct (p =? ndn).
    + destruct (receive_from w u) as [[w1 b]| | |] eqn:Rf; cbn [rbind] in D; try discriminate.
      destruct (deliver up ndn w1 ns) as [[w2 o2]| | |] eqn:D2; cbn [rbind] in D; try discriminate. injection D as <- <-.
      destruct (IH _ _ _ D2) as [A B]. split.
      * rewrite A. unfold receive_from, copy_packet in Rf. destruct (find_tag u (fw_heap w)); cbn [rbind create_packet] in Rf; [|discriminate].
        unfold remove_block in Rf. cbn [fw_heap] in Rf. destruct (find_tag _ _) as [[|[c|] hs]|]; try discriminate. injection Rf as <- _. reflexivity.
      * intros t' r' b' [H|[H|H]]; [discriminate| |].
        -- injection H as <- <- <-. exists n, u, p. split; [left; reflexivity|exact U].
        -- destruct (B _ _ _ H) as (m & v & q & Hm & V). exists m, v, q. split; [right; exact Hm|exact V].
    + destruct (deliver up ndn w ns) as [[w2 o2]| | |] eqn:D2; cbn [rbind] in D; try discriminate. injection D as <- <-. exact (Quiet _ _ eq_refl).
  - destruct (deliver up ndn w ns) as [[w2 o2]| | |] eqn:D2; cbn [rbind] in D; try discriminate. injection D as <- <-. exact (Quiet _ _ eq_refl).
Qed.

Section Calls.
Variable w : islnet.
Variable ndn : Z.
Hypothesis Ln : w_linked w.
Hypothesis Hn : is_u16 ndn.
Local Notation world := (fworld (lstate (F := unit))).
Local Notation call := (f_call (isl_l_step w) LSend isl_do link_up ndn).

Lemma calls_snoc : forall cs fw fns c, isl_calls w ndn cs = Some (Ok (fw, fns)) ->
  isl_calls w ndn (cs ++ [c]) = match call fw c with Some (Ok (fw2, out)) => Some (Ok (fw2, fns ++ out)) | x => x end.
Proof. intros cs fw fns c R. unfold isl_calls in *. rewrite f_calls_snoc, R. reflexivity. Qed.

Lemma ndn_snoc : forall (cs : list (fcall unit)) c, ndn_only cs -> (forall t i p, c <> FRaw t i p) -> ndn_only (cs ++ [c]).
Proof. intros cs c H N t i p Hi. apply in_app_or in Hi. destruct Hi as [Hi|[Hi|[]]]; [exact (H _ _ _ Hi)|exact (N _ _ _ Hi)]. Qed.

Lemma call_safe' : forall cs fw fns c r, ndn_only (cs ++ [c]) -> isl_calls w ndn cs = Some (Ok (fw, fns)) -> call fw c = Some r ->
  exists fw2 out, r = Ok (fw2, out) /\ isl_calls w ndn (cs ++ [c]) = Some (Ok (fw2, fns ++ out)).
Proof.
  intros cs fw fns c r Oy R Fc. pose proof (calls_snoc cs fw fns c R) as E. rewrite Fc in E.
  destruct r as [[fw2 out]| | |]; [eauto| | |]; exfalso;
    destruct (isl_faces w ndn _ _ Ln Hn (only_one_kind ndn _ Oy) E) as (? & ? & ? & ? & X & _); discriminate.
Qed.

Lemma net_inv : forall cs fw fns, ndn_only cs -> isl_calls w ndn cs = Some (Ok (fw, fns)) ->
  l_inv (isl_step (w_tx w) (w_rate w) (w_fits w)) (isl_spread (w_tx w) (w_rate w) (w_delay w) (w_success w) (w_channel w)) isl_hears
    (fun _ => tt) (fun i => t_inv (w_tx w (w_rate w i))) (net_notes fns) (fw_net fw).
Proof.
  intros cs fw fns Oy R. destruct (isl_faces w ndn cs _ Ln Hn (only_one_kind ndn cs Oy) R) as (fw' & fns' & ops & tab & Eq & I). injection Eq as <- <-.
  pose proof (fi_run _ _ _ _ _ _ _ _ _ _ _ I) as Rn. rewrite isl_run_n in Rn. exact (isl_run_inv w Ln ops _ _ Rn).
Qed.
Lemma ready_now : forall cs fw fns, ndn_only cs -> isl_calls w ndn cs = Some (Ok (fw, fns)) -> ready (fw_net fw) (l_now (fw_net fw)) = true.
Proof.
  intros cs fw fns Oy R. pose proof (li_future _ _ _ _ _ _ _ (net_inv cs fw fns Oy R)) as Fu. unfold ready. rewrite Z.leb_refl. cbn [andb].
  apply forallb_forall. intros x Hx. rewrite Forall_forall in Fu. apply Z.leb_le. apply Fu. exact Hx.
Qed.

Lemma device_quiet : forall y t i o y' ns, device_call (isl_step (w_tx w) (w_rate w) (w_fits w)) (fun i => w_tx w (w_rate w i))
     (isl_spread (w_tx w) (w_rate w) (w_delay w) (w_success w) (w_channel w)) y t i o = Ok (y', ns) ->
  l_now y' = l_now y /\ forall n : knote unit, In n ns -> link_up n = None.
Proof.
  intros y t i o y' ns H. apply device_call_ok in H. destruct H as (d & ev & q & n & St & Fl & -> & ->). split; [reflexivity|].
  destruct (fly_facts _ _ _ isl_hears (fun _ => tt) _ (isl_dur_pos w Ln) (isl_hop_pos w Ln) (isl_inv_init w) (fun _ _ _ T => T) (isl_inv_step w Ln) _ _ _ _ _ _ Fl) as (_ & _ & _ & _ & N & _).
  intros m [<-|Hm]; [reflexivity|]. destruct (N m Hm) as [u ->]. reflexivity.
Qed.

Lemma send_call : forall cs fw fns t i b, ndn_only cs -> isl_calls w ndn cs = Some (Ok (fw, fns)) -> ready (fw_net fw) t = true ->
  exists fw2 out, call fw (FSend t i b) = Some (Ok (fw2, out)) /\ isl_calls w ndn (cs ++ [FSend t i b]) = Some (Ok (fw2, fns ++ out)) /\
    ndn_only (cs ++ [FSend t i b]) /\ (forall t' r c, ~ In (FGot t' r c) out) /\ l_now (fw_net fw2) = t.
Proof.
  intros cs fw fns t i b Oy R Rd. assert (Oy' : ndn_only (cs ++ [FSend t i b])) by (apply ndn_snoc; [exact Oy|discriminate]).
  assert (Fc : exists r, call fw (FSend t i b) = Some r).
  { cbn [f_call]. destruct (do_send fw b) as [[fw1 u]| | |] eqn:Ds; eauto. unfold operate.
    assert (En : fw_net fw1 = fw_net fw).
    { unfold do_send, create_packet, add_header in Ds. cbn [fw_heap] in Ds. destruct (find_tag _ _); cbn [rbind] in Ds; [|discriminate]. injection Ds as <- _. reflexivity. }
    rewrite En. unfold isl_l_step. cbn [l_step]. rewrite Rd. eauto. }
  destruct Fc as [r Fc]. destruct (call_safe' cs fw fns _ r Oy' R Fc) as (fw2 & out & -> & R2). exists fw2, out. split; [exact Fc|]. split; [exact R2|]. split; [exact Oy'|].
  clear R2. cbn [f_call] in Fc. destruct (do_send fw b) as [[fw1 u]| | |] eqn:Ds; try discriminate. unfold operate in Fc.
  assert (En : fw_net fw1 = fw_net fw).
  { unfold do_send, create_packet, add_header in Ds. cbn [fw_heap] in Ds. destruct (find_tag _ _); cbn [rbind] in Ds; [|discriminate]. injection Ds as <- _. reflexivity. }
  rewrite En in Fc. unfold isl_l_step in Fc. cbn [l_step] in Fc. rewrite Rd in Fc. apply some_inj in Fc.
  destruct (device_call _ _ _ _ t i _) as [[y1 ns]| | |] eqn:Dc; cbn [rbind] in Fc; try discriminate.
  destruct (device_quiet _ _ _ _ _ _ Dc) as [Nw Qu]. rewrite (deliver_quiet _ _ _ _ _ _ Qu) in Fc. injection Fc as <- <-. split.
  - intros t' r' c H. apply in_map_iff in H. destruct H as (n & H & _). discriminate.
  - cbn [fw_net]. rewrite Nw. reflexivity.
Qed.

Lemma next_call : forall cs fw fns, ndn_only cs -> isl_calls w ndn cs = Some (Ok (fw, fns)) -> l_queue (fw_net fw) <> [] ->
  exists fw2 out, call fw (FDo tt) = Some (Ok (fw2, out)) /\ isl_calls w ndn (cs ++ [FDo tt]) = Some (Ok (fw2, fns ++ out)) /\
    ndn_only (cs ++ [FDo tt]) /\ (forall t' r c, In (FGot t' r c) out -> t' = l_now (fw_net fw2)).
Proof.
  intros cs fw fns Oy R Q. assert (Oy' : ndn_only (cs ++ [FDo tt])) by (apply ndn_snoc; [exact Oy|discriminate]).
  assert (Fc : exists r, call fw (FDo tt) = Some r).
  { cbn [f_call]. unfold operate, isl_l_step, isl_do. cbn [l_step]. destruct (l_queue (fw_net fw)) as [|[t e] q]; [contradiction|eauto]. }
  destruct Fc as [r Fc]. destruct (call_safe' cs fw fns _ r Oy' R Fc) as (fw2 & out & -> & R2). exists fw2, out. split; [exact Fc|]. split; [exact R2|]. split; [exact Oy'|].
  clear R2. cbn [f_call] in Fc. unfold operate, isl_l_step, isl_do in Fc. cbn [l_step] in Fc. destruct (l_queue (fw_net fw)) as [|[t e] q]; [contradiction|]. apply some_inj in Fc.
  intros t' r' c Hg. destruct e as [i|f|f].
  - destruct (device_call _ _ _ _ t i _) as [[y1 ns]| | |] eqn:Dc; cbn [rbind] in Fc; try discriminate.
    destruct (device_quiet _ _ _ _ _ _ Dc) as [Nw Qu]. rewrite (deliver_quiet _ _ _ _ _ _ Qu) in Fc. injection Fc as <- <-.
    apply in_map_iff in Hg. destruct Hg as (n & H & _). discriminate.
  - cbn [receive rbind] in Fc. rewrite deliver_quiet in Fc by (intros n [<-|[]]; reflexivity). injection Fc as <- <-. destruct Hg as [H|[]]. discriminate.
  - cbn [rbind] in Fc. destruct (deliver_net _ _ _ _ _ _ _ _ Fc) as [En Up]. rewrite En. cbn [fw_net l_now]. destruct (Up _ _ _ Hg) as (n & u & p & [<-|[]] & U). cbn in U. congruence.
Qed.
End Calls.

(** ** Relaying *)
Definition r_calls (l : list rnote) : list (fcall unit) := flat_map (fun x => match x with RCall c => [c] | _ => [] end) l.
Definition r_fns (l : list rnote) : list (fnote (knote unit)) := flat_map (fun x => match x with RNet f => [f] | _ => [] end) l.

Lemma r_calls_app : forall a b, r_calls (a ++ b) = r_calls a ++ r_calls b.
Proof. intros. apply flat_map_app. Qed.
Lemma r_fns_app : forall a b, r_fns (a ++ b) = r_fns a ++ r_fns b.
Proof. intros. apply flat_map_app. Qed.
Lemma r_calls_net : forall l, r_calls (map RNet l) = [].
Proof. induction l as [|f l IH]; [reflexivity|exact IH]. Qed.
Lemma r_fns_net : forall l, r_fns (map RNet l) = l.
Proof. induction l as [|f l IH]; [reflexivity|]. cbn. fold (r_fns (map RNet l)). rewrite IH. reflexivity. Qed.
Lemma hopped_calls : forall l, hopped l = sent_blocks (r_calls l).
Proof.
  induction l as [|x l IH]; [reflexivity|]. change (x :: l) with ([x] ++ l). rewrite r_calls_app. unfold hopped, sent_blocks in *. rewrite !flat_map_app, IH. f_equal.
  destruct x as [[t i b|t i p|u]|f|t n b|t n b|t n b]; reflexivity.
Qed.
Lemma relayed_gots : forall l, relayed l = gots (r_fns l).
Proof.
  induction l as [|x l IH]; [reflexivity|]. change (x :: l) with ([x] ++ l). rewrite r_fns_app, gots_app. unfold relayed in *. rewrite !flat_map_app, IH. f_equal.
  destruct x as [c|[n|t r b]|t n b|t n b|t n b]; reflexivity.
Qed.

Section Relaying.
Variable w : islnet.
Variable ndn : Z.
Variable devs : list isl_device.
Variable react : Z -> Z -> nat -> face -> result (list action).
Hypothesis Ln : w_linked w.
Hypothesis Hn : is_u16 ndn.

(** Where an Interest goes, how far that is, and on which faces it may come in. *)
Variable dst : Z -> nat.
Variable dist : nat -> Z -> nat.
Variable may : Z -> nat -> face -> Prop.
Hypothesis st_here : forall t b n f, may b n f -> dist n b = 0%nat -> n = dst b /\ react t b n f = Ok [SendInterest GroundFace].
Hypothesis st_on : forall t b n f, may b n f -> dist n b <> 0%nat ->
  exists k i e, react t b n f = Ok [SendInterest (IslFace k)] /\ find_device 0 devs n k = Some i /\
    nth_error devs (w_peer w i) = Some e /\ dist n b = S (dist (isl_node e) b) /\ may b (isl_node e) (IslFace (isl_chan e)).

Local Notation world := (fworld (lstate (F := unit))).

Definition node (i : nat) : nat := match nth_error devs i with Some d => isl_node d | None => 0%nat end.
Definition at_node (x : Z * nat * Z) : Z * nat * Z := (fst (fst x), node (snd (fst x)), snd x).

Lemma found_device : forall l k n c i, find_device k l n c = Some i -> exists d, nth_error l (i - k) = Some d /\ isl_node d = n /\ isl_chan d = c /\ (k <= i)%nat.
Proof.
  induction l as [|d l IH]; intros k n c i H; cbn [find_device] in H; [discriminate|]. destruct (Nat.eqb_spec (isl_node d) n) as [E1|], (Nat.eqb_spec (isl_chan d) c) as [E2|]; cbn [andb] in H;
    try (destruct (IH _ _ _ _ H) as (d' & A & B & C & D); exists d'; replace (i - k)%nat with (S (i - S k))%nat by lia; repeat split; auto; lia).
  injection H as <-. exists d. rewrite Nat.sub_diag. auto.
Qed.

(** A good send: from a device whose other end is one step nearer. *)
Definition good (x : Z * nat * Z) : Prop := let '(t, i, b) := x in
  dist (node i) b = S (dist (node (w_peer w i)) b) /\ exists e, nth_error devs (w_peer w i) = Some e /\ may b (isl_node e) (IslFace (isl_chan e)).

Record core (rns : list rnote) (fw : world) (arr : list (Z * nat * Z)) : Prop := mkCore {
  c_run : isl_calls w ndn (r_calls rns) = Some (Ok (fw, r_fns rns));
  c_ndn : ndn_only (r_calls rns);
  c_book : Permutation (map at_node (hopped rns) ++ grounded rns) arr;
  c_sent : Forall good (hopped rns);
  c_ground : Forall (fun x => dist (snd (fst x)) (snd x) = 0%nat /\ snd (fst x) = dst (snd x)) (grounded rns);
  c_stray : strayed rns = [] }.

Lemma core_got : forall rns fw arr t r b, core rns fw arr -> In (FGot t r b) (r_fns rns) ->
  exists e, nth_error devs r = Some e /\ may b (isl_node e) (IslFace (isl_chan e)).
Proof.
  intros rns fw arr t r b C H. destruct (got_from w ndn Ln Hn _ _ _ _ _ _ (c_ndn _ _ _ C) (c_run _ _ _ C) H) as (t0 & t1 & u & Hs & _).
  pose proof (c_sent _ _ _ C) as S. rewrite hopped_calls in S. rewrite Forall_forall in S.
  assert (Hi : In (t0, w_peer w r, b) (sent_blocks (r_calls rns))) by (apply in_flat_map; eexists; split; [exact Hs|left; reflexivity]).
  apply S in Hi. destruct Hi as [_ (e & E & M)]. rewrite (ws_peer w Ln) in E. eauto.
Qed.

Lemma relay_in_ok : forall rns fw arr t n f b, core rns fw arr -> ready (fw_net fw) t = true -> may b n f ->
  exists fw2 out, relay_in w ndn devs react fw t n f b = Some (Ok (fw2, out)) /\ core (rns ++ out) fw2 (arr ++ [(t, n, b)]) /\
    ready (fw_net fw2) t = true /\ relayed out = [] /\ calls_next (r_calls out) = 0%nat.
Proof.
  intros rns fw arr t n f b C Rd M. unfold relay_in. destruct (Nat.eq_dec (dist n b) 0) as [Z0|Nz].
  - destruct (st_here t b n f M Z0) as [En ->]. exists fw, [RGround t n b]. split; [reflexivity|].
    split; [|split; [exact Rd|split; reflexivity]]. destruct C as [C1 C2 C3 C4 C5 C6]. constructor.
    + rewrite r_calls_app, r_fns_app. cbn. rewrite !app_nil_r. exact C1.
    + rewrite r_calls_app. cbn. rewrite app_nil_r. exact C2.
    + unfold hopped, grounded in *. rewrite !flat_map_app. cbn. rewrite app_nil_r, app_assoc. apply Permutation_app_tail. exact C3.
    + unfold hopped in *. rewrite flat_map_app. cbn. rewrite app_nil_r. exact C4.
    + unfold grounded in *. rewrite flat_map_app. apply Forall_app. split; [exact C5|]. repeat constructor; assumption.
    + unfold strayed in *. rewrite flat_map_app, C6. reflexivity.
  - destruct (st_on t b n f M Nz) as (k & i & e & -> & Fd & Ne & Di & Me).
    destruct (send_call w ndn Ln Hn _ _ _ t i b (c_ndn _ _ _ C) (c_run _ _ _ C) Rd) as (fw2 & out & Fc & R2 & O2 & Ng & Nw).
    cbn [obind relay_acts]. rewrite Fd. unfold relay_call. rewrite Fc. cbn [obind fst snd]. rewrite app_nil_r. exists fw2, (RCall (FSend t i b) :: map RNet out). split; [reflexivity|].
    destruct (found_device _ _ _ _ _ Fd) as (d & Nd & Dn & _). rewrite Nat.sub_0_r in Nd.
    assert (G0 : gots out = []).
    { clear - Ng. induction out as [|[m|t' r c] out IH]; [reflexivity| |exfalso; apply (Ng t' r c); left; reflexivity]. apply IH. intros t' r c H. apply (Ng t' r c). right. exact H. }
    assert (C' : core (rns ++ RCall (FSend t i b) :: map RNet out) fw2 (arr ++ [(t, n, b)])).
    { destruct C as [C1 C2 C3 C4 C5 C6]. 
      assert (Ec : r_calls (rns ++ RCall (FSend t i b) :: map RNet out) = r_calls rns ++ [FSend t i b]).
      { rewrite r_calls_app. cbn. fold (r_calls (map RNet out)). rewrite r_calls_net. reflexivity. }
      assert (Ef : r_fns (rns ++ RCall (FSend t i b) :: map RNet out) = r_fns rns ++ out).
      { rewrite r_fns_app. cbn. fold (r_fns (map RNet out)). rewrite r_fns_net. reflexivity. }
      assert (Eh : hopped (rns ++ RCall (FSend t i b) :: map RNet out) = hopped rns ++ [(t, i, b)]).
      { rewrite !hopped_calls, Ec. unfold sent_blocks. rewrite flat_map_app. reflexivity. }
      assert (Eg : grounded (rns ++ RCall (FSend t i b) :: map RNet out) = grounded rns /\ strayed (rns ++ RCall (FSend t i b) :: map RNet out) = strayed rns).
      { unfold grounded, strayed. rewrite !flat_map_app. cbn. clear. induction out as [|x l IH]; [cbn; rewrite !app_nil_r; split; reflexivity|exact IH]. }
      destruct Eg as [Eg Es]. constructor.
      - rewrite Ec, Ef. exact R2.
      - rewrite Ec. exact O2.
      - rewrite Eh, Eg, map_app. cbn [map]. unfold at_node at 2. cbn [fst snd]. unfold node. rewrite Nd, Dn.
        rewrite <- app_assoc. cbn [app]. rewrite <- C3. rewrite <- Permutation_middle, <- Permutation_cons_append. reflexivity.
      - rewrite Eh. apply Forall_app. split; [exact C4|]. repeat constructor. 2: exists e; auto. unfold node. rewrite Nd, Ne, Dn. exact Di.
      - rewrite Eg. exact C5.
      - rewrite Es. exact C6. }
    split; [exact C'|]. split; [|split].
    + rewrite <- Nw. exact (ready_now w ndn Ln Hn _ _ _ (c_ndn _ _ _ C') (c_run _ _ _ C')).
    + change (RCall (FSend t i b) :: map RNet out) with ([RCall (FSend t i b)] ++ map RNet out). rewrite relayed_gots, r_fns_app, r_fns_net. exact G0.
    + change (RCall (FSend t i b) :: map RNet out) with ([RCall (FSend t i b)] ++ map RNet out). rewrite r_calls_app, r_calls_net. reflexivity.
Qed.

Lemma relay_gots_ok : forall fns rns fw arr t0, core rns fw arr -> ready (fw_net fw) t0 = true ->
  (forall t r b, In (FGot t r b) fns -> t = t0 /\ exists e, nth_error devs r = Some e /\ may b (isl_node e) (IslFace (isl_chan e))) ->
  exists fw2 out, relay_gots w ndn devs react fw fns = Some (Ok (fw2, out)) /\ core (rns ++ out) fw2 (arr ++ map at_node (gots fns)) /\
    relayed out = [] /\ calls_next (r_calls out) = 0%nat.
Proof.
  induction fns as [|[m|t r b] fns IH]; intros rns fw arr t0 C Rd Hg.
  - exists fw, []. split; [reflexivity|]. cbn. rewrite !app_nil_r. auto.
  - apply (IH rns fw arr t0 C Rd). intros; eapply Hg; right; eassumption.
  - destruct (Hg t r b (or_introl eq_refl)) as [-> (e & Ne & Me)]. cbn [relay_gots]. rewrite Ne.
    destruct (relay_in_ok rns fw arr t0 (isl_node e) (IslFace (isl_chan e)) b C Rd Me) as (fw1 & o1 & E1 & C1 & Rd1 & G1 & N1). rewrite E1. cbn [obind fst snd].
    destruct (IH (rns ++ o1) fw1 _ t0 C1 Rd1) as (fw2 & o2 & E2 & C2 & G2 & N2); [intros; eapply Hg; right; eassumption|]. rewrite E2. cbn [obind fst snd].
    exists fw2, (o1 ++ o2). split; [reflexivity|]. rewrite app_assoc. split; [|split].
    + change (gots (FGot t0 r b :: fns)) with ((t0, r, b) :: gots (N := knote unit) fns). cbn [map]. unfold at_node at 1. cbn [fst snd]. unfold node at 1. rewrite Ne.
      rewrite <- (app_assoc rns), <- (app_assoc arr) in C2. rewrite <- (app_assoc rns). exact C2.
    + unfold relayed in *. rewrite flat_map_app, G1, G2. reflexivity.
    + rewrite r_calls_app. unfold calls_next in *. rewrite filter_app, app_length, N1, N2. reflexivity.
Qed.

Record r_inv (ops : list rop) (rns : list rnote) (fw : world) : Prop := mkRInv {
  ri_core : core rns fw (came ops ++ map at_node (relayed rns));
  ri_next : calls_next (r_calls rns) = events ops }.

Lemma core_perm : forall rns fw a a', Permutation a a' -> core rns fw a -> core rns fw a'.
Proof. intros rns fw a a' P [C1 C2 C3 C4 C5 C6]. constructor; auto. rewrite C3. exact P. Qed.

Lemma core_next : forall rns fw arr, core rns fw arr -> l_queue (fw_net fw) <> [] ->
  exists fw2 out, r_step w ndn devs react fw RNext = Some (Ok (fw2, out)) /\ core (rns ++ out) fw2 (arr ++ map at_node (relayed out)) /\
    calls_next (r_calls out) = 1%nat.
Proof.
  intros rns fw arr C Q. destruct (next_call w ndn Ln Hn _ _ _ (c_ndn _ _ _ C) (c_run _ _ _ C) Q) as (fw1 & o1 & Fc & R1 & O1 & Tm).
  cbn [r_step]. rewrite Fc. cbn [obind fst snd].
  assert (C1 : core (rns ++ RCall (FDo tt) :: map RNet o1) fw1 arr).
  { assert (Ec : r_calls (rns ++ RCall (FDo tt) :: map RNet o1) = r_calls rns ++ [FDo tt]).
    { rewrite r_calls_app. cbn. fold (r_calls (map RNet o1)). rewrite r_calls_net. reflexivity. }
    assert (Ef : r_fns (rns ++ RCall (FDo tt) :: map RNet o1) = r_fns rns ++ o1).
    { rewrite r_fns_app. cbn. fold (r_fns (map RNet o1)). rewrite r_fns_net. reflexivity. }
    assert (Eh : hopped (rns ++ RCall (FDo tt) :: map RNet o1) = hopped rns).
    { rewrite !hopped_calls, Ec. unfold sent_blocks. rewrite flat_map_app. cbn. apply app_nil_r. }
    assert (Eg : grounded (rns ++ RCall (FDo tt) :: map RNet o1) = grounded rns /\ strayed (rns ++ RCall (FDo tt) :: map RNet o1) = strayed rns).
    { unfold grounded, strayed. rewrite !flat_map_app. cbn. clear. induction o1 as [|x l IH]; [cbn; rewrite !app_nil_r; split; reflexivity|exact IH]. }
    destruct Eg as [Eg Es]. destruct C as [D1 D2 D3 D4 D5 D6]. constructor; rewrite ?Ec, ?Ef, ?Eh, ?Eg, ?Es; auto. }
  pose proof (ready_now w ndn Ln Hn _ _ _ (c_ndn _ _ _ C1) (c_run _ _ _ C1)) as Rd.
  destruct (relay_gots_ok o1 _ _ _ (l_now (fw_net fw1)) C1 Rd) as (fw2 & o2 & E2 & C2 & G2 & N2).
  { intros t r b H. split; [exact (Tm _ _ _ H)|]. apply (core_got _ _ _ t r b C1). rewrite r_fns_app. apply in_or_app. right. cbn. fold (r_fns (map RNet o1)). rewrite r_fns_net. exact H. }
  rewrite E2. cbn [obind fst snd]. exists fw2, ((RCall (FDo tt) :: map RNet o1) ++ o2). split; [reflexivity|].
  assert (Er : relayed ((RCall (FDo tt) :: map RNet o1) ++ o2) = gots o1).
  { rewrite relayed_gots. rewrite r_fns_app. cbn [r_fns flat_map]. fold (r_fns (map RNet o1)). rewrite r_fns_net, gots_app. cbn [app]. rewrite <- (relayed_gots o2), G2, app_nil_r. reflexivity. }
  rewrite Er. split.
  - rewrite app_assoc. exact C2.
  - rewrite r_calls_app. cbn [r_calls flat_map]. fold (r_calls (map RNet o1)). rewrite r_calls_net. unfold calls_next in *. rewrite filter_app, app_length, N2. reflexivity.
Qed.

Lemma came_app : forall a b, came (a ++ b) = came a ++ came b.
Proof. intros. apply flat_map_app. Qed.
Lemma relayed_app : forall a b, relayed (a ++ b) = relayed a ++ relayed b.
Proof. intros. apply flat_map_app. Qed.

Lemma step_inv : forall ops rns fw o r, r_inv ops rns fw -> (forall t n b, o = RIn t n b -> may b n GroundFace) -> r_step w ndn devs react fw o = Some r ->
  exists fw2 out, r = Ok (fw2, out) /\ r_inv (ops ++ [o]) (rns ++ out) fw2.
Proof.
  intros ops rns fw o r [C Ne] Mo S. destruct o as [t n b|].
  - cbn [r_step] in S. destruct (ready (fw_net fw) t) eqn:Rd; [|discriminate].
    destruct (relay_in_ok _ _ _ t n GroundFace b C Rd (Mo _ _ _ eq_refl)) as (fw2 & out & E & C2 & _ & G & N). rewrite E in S. injection S as <-. exists fw2, out. split; [reflexivity|]. constructor.
    + eapply core_perm; [|exact C2]. rewrite came_app, relayed_app, G, app_nil_r. rewrite <- !app_assoc. apply Permutation_app_head. apply Permutation_app_comm.
    + rewrite r_calls_app. unfold calls_next, events in *. rewrite !filter_app, !app_length, N, Ne. reflexivity.
  - assert (Q : l_queue (fw_net fw) <> []).
    { intros Q. cbn [r_step] in S. unfold f_call, operate, isl_l_step, isl_do in S. cbn [l_step] in S. rewrite Q in S. discriminate. }
    destruct (core_next _ _ _ C Q) as (fw2 & out & E & C2 & N). rewrite E in S. injection S as <-. exists fw2, out. split; [reflexivity|]. constructor.
    + eapply core_perm; [|exact C2]. rewrite came_app, relayed_app, map_app. cbn [came flat_map]. rewrite app_nil_r, app_assoc. reflexivity.
    + rewrite r_calls_app. unfold calls_next, events in *. rewrite !filter_app, !app_length, N, Ne. reflexivity.
Qed.

Lemma run_from : forall more ops rns fw r, r_inv ops rns fw -> (forall t n b, In (RIn t n b) more -> may b n GroundFace) -> r_run w ndn devs react fw more = Some r ->
  exists fw2 out, r = Ok (fw2, out) /\ r_inv (ops ++ more) (rns ++ out) fw2.
Proof.
  induction more as [|o more IH]; intros ops rns fw r I Mo R; cbn [r_run] in R.
  - injection R as <-. exists fw, []. rewrite !app_nil_r. auto.
  - destruct (r_step w ndn devs react fw o) as [r1|] eqn:S; [|discriminate].
    destruct (step_inv _ _ _ _ _ I ltac:(intros t n b E; apply (Mo t n b); left; exact E) S) as (fw1 & o1 & -> & I1). cbn [obind fst snd] in R.
    destruct (r_run w ndn devs react fw1 more) as [r2|] eqn:R2; [|discriminate].
    destruct (IH _ _ _ _ I1 ltac:(intros; eapply Mo; right; eassumption) R2) as (fw2 & o2 & -> & I2). cbn [obind fst snd] in R. injection R as <-.
    exists fw2, (o1 ++ o2). split; [reflexivity|]. rewrite <- !app_assoc in I2. exact I2.
Qed.

Lemma start_inv : r_inv [] [] (fw_init (l_init (fun _ => tt))).
Proof. constructor; [|reflexivity]. constructor; try constructor; try reflexivity. intros t i p []. Qed.

Lemma relay_inv : forall ops r, (forall t n b, In (RIn t n b) ops -> may b n GroundFace) -> relay w ndn devs react ops = Some r ->
  exists fw rns, r = Ok (fw, rns) /\ r_inv ops rns fw.
Proof. intros ops r Mo R. exact (run_from ops [] [] _ r start_inv Mo R). Qed.

(** ** Counting *)
Definition weigh (m : nat -> Z -> nat) (l : list (nat * Z)) : nat := fold_right (fun x k => (m (fst x) (snd x) + k)%nat) 0%nat l.
Lemma weigh_app : forall m a b, weigh m (a ++ b) = (weigh m a + weigh m b)%nat.
Proof. intros m. induction a as [|x a IH]; intros b; [reflexivity|]. cbn [app weigh fold_right]. fold (weigh m a) (weigh m (a ++ b)). rewrite IH. lia. Qed.
Lemma weigh_perm : forall m a b, Permutation a b -> weigh m a = weigh m b.
Proof.
  intros m a b P. induction P as [|x l l' P IH|x z l|l l' l'' P1 IH1 P2 IH2]; cbn [weigh fold_right]; try fold (weigh m l); try fold (weigh m l').
  - reflexivity.
  - rewrite IH. reflexivity.
  - lia.
  - congruence.
Qed.
Definition where_ (l : list (Z * nat * Z)) : list (nat * Z) := map (fun x => (snd (fst x), snd x)) l.

Definition lost_at (tab : packets) (rns : list rnote) : list (nat * Z) :=
  map (fun x => (node (w_peer w (fst x)), block_of tab (snd x))) (lost_pairs (net_notes (r_fns rns))).

(** All there is to count with: [way] are the Interests under way, by the node they are going to. *)
Lemma accounts : forall ops rns fw, r_inv ops rns fw -> exists tab way,
  (forall u hs, In (u, hs) tab -> find_tag u (fw_heap fw) = Some hs) /\ NoDup (map fst tab) /\
  (forall x, In x (lost_pairs (net_notes (r_fns rns))) -> exists b, In (snd x, [Block b]) tab) /\
  (l_queue (fw_net fw) = [] -> way = []) /\
  (forall m, (weigh m (where_ (map at_node (relayed rns))) + weigh m way + weigh m (lost_at tab rns) = weigh (fun i b => m (node (w_peer w i)) b) (where_ (hopped rns)))%nat) /\
  (forall m, (weigh (fun i b => m (node i) b) (where_ (hopped rns)) + weigh m (where_ (grounded rns)) = weigh m (where_ (came ops)) + weigh m (where_ (map at_node (relayed rns))))%nat).
Proof.
  intros ops rns fw [C _]. destruct (blocks_account w ndn Ln Hn _ _ _ (c_ndn _ _ _ C) (c_run _ _ _ C)) as (tab & way & Tb & Nd & Lo & Wq & Pe).
  exists tab, (map (fun x => (node (fst x), snd x)) way). split; [exact Tb|]. split; [exact Nd|]. split; [exact Lo|]. split; [intros Q; rewrite (Wq Q); reflexivity|]. split.
  - intros m. apply (Permutation_map (fun x => (node (fst x), snd x))) in Pe. apply (weigh_perm m) in Pe. rewrite !map_app, !weigh_app, !map_map in Pe. cbn [fst snd] in Pe.
    assert (E1 : where_ (map at_node (relayed rns)) = map (fun x => (node (snd (fst x)), snd x)) (gots (r_fns rns))).
    { rewrite relayed_gots. unfold where_. rewrite map_map. reflexivity. }
    assert (E2 : forall l, weigh (fun i b => m (node (w_peer w i)) b) (where_ l) = weigh m (map (fun x => (node (w_peer w (snd (fst x))), snd x)) l)).
    { induction l as [|x l IH]; [reflexivity|]. cbn [where_ map weigh fold_right fst snd]. fold (where_ l) (weigh m (map (fun x => (node (w_peer w (snd (fst x))), snd x)) l)).
      rewrite <- IH. reflexivity. }
    rewrite E1, E2, hopped_calls. unfold lost_at. lia.
  - intros m. pose proof (c_book _ _ _ C) as B. apply (Permutation_map (fun x => (snd (fst x), snd x))) in B. apply (weigh_perm m) in B. rewrite !map_app, !weigh_app in B.
    fold (where_ (map at_node (hopped rns))) (where_ (grounded rns)) (where_ (came ops)) (where_ (map at_node (relayed rns))) in B.
    assert (E : forall l, weigh (fun i b => m (node i) b) (where_ l) = weigh m (where_ (map at_node l))).
    { induction l as [|x l IH]; [reflexivity|]. cbn [where_ map weigh fold_right fst snd at_node]. unfold weigh, where_ in IH. rewrite IH. reflexivity. }
    rewrite E. exact B.
Qed.

Definition one (b : Z) (_ : nat) (c : Z) : nat := if c =? b then 1%nat else 0%nat.
Definition here (b : Z) (n : nat) (c : Z) : nat := if c =? b then dist n b else 0%nat.
Lemma weigh_one : forall b l, weigh (one b) (where_ l) = times b l.
Proof.
  intros b. unfold times. induction l as [|x l IH]; [reflexivity|]. cbn [where_ map weigh fold_right filter fst snd]. fold (where_ l). unfold weigh in IH. rewrite IH. unfold one. destruct (snd x =? b); reflexivity.
Qed.
Lemma weigh_far : forall b l, weigh (here b) (where_ l) = far dist b l.
Proof.
  intros b. induction l as [|[[t n] c] l IH]; [reflexivity|]. cbn [where_ map weigh fold_right far fst snd]. fold (where_ l). unfold weigh in IH. rewrite IH. reflexivity.
Qed.

Lemma lost_split : forall heap (l : list rnote), lost heap l = flat_map (lost_in heap) (net_notes (r_fns l)).
Proof.
  intros heap. induction l as [|x l IH]; [reflexivity|]. change (x :: l) with ([x] ++ l). rewrite r_fns_app, net_notes_app. unfold lost in *. rewrite !flat_map_app, IH. f_equal.
  destruct x as [c|[n|t r b]|t n b|t n b|t n b]; cbn; rewrite ?app_nil_r; reflexivity.
Qed.
Lemma lost_count : forall tab heap b ns (f : nat * Z -> nat), (forall u hs, In (u, hs) tab -> find_tag u heap = Some hs) -> NoDup (map fst tab) ->
  (forall x, In x (lost_pairs ns) -> exists b, In (snd x, [Block b]) tab) ->
  weigh (one b) (map (fun x => (f x, block_of tab (snd x))) (lost_pairs ns)) = count_occ Z.eq_dec (flat_map (lost_in heap) ns) b.
Proof.
  intros tab heap b ns f Tb Nd Lo. unfold lost_pairs in *.
  assert (One : forall x : nat * Z, (exists c, In (snd x, [Block c]) tab) ->
    one b 0 (block_of tab (snd x)) = count_occ Z.eq_dec (block_at heap (snd x)) b).
  { intros [i u] [c Hc]. cbn [snd] in *. unfold block_of, block_at. rewrite (in_find _ _ _ _ Nd Hc), (Tb _ _ Hc). cbn [count_occ]. unfold one. destruct (Z.eqb_spec c b), (Z.eq_dec c b); congruence. }
  rewrite map_app, weigh_app. induction ns as [|n ns IH]; [reflexivity|]. change (n :: ns) with ([n] ++ ns) in *.
  assert (Ed : dropped ([n] ++ ns) = dropped [n] ++ dropped ns) by apply dropped_app.
  assert (Er : refused_pairs ([n] ++ ns) = refused_pairs [n] ++ refused_pairs ns) by apply flat_map_app.
  rewrite Ed, Er in Lo. rewrite Ed, Er. rewrite !map_app, !weigh_app, flat_map_app, count_occ_app. rewrite map_app in Lo. rewrite <- IH; clear IH.
  2: { intros x Hx. apply Lo. apply in_app_or in Hx. destruct Hx as [Hx|Hx]; [apply in_or_app; left; apply in_or_app; auto|apply in_or_app; right; apply in_or_app; auto]. }
  unfold refused_pairs in *.
  enough (X : (weigh (one b) (map (fun x => (f x, block_of tab (snd x))) (map (fun x => (snd (fst x), snd x)) (dropped [n]))) +
     weigh (one b) (map (fun x => (f x, block_of tab (snd x)))
       (flat_map (fun n => match n with KDev _ i _ ev => flat_map (fun e => match e with SRefuse u => [(i, u)] | _ => [] end) ev | _ => [] end) [n])) =
     count_occ Z.eq_dec (flat_map (lost_in heap) [n]) b)%nat) by lia.
  destruct n as [t i o ev|t i u|t g ok|t r x|t g]; try reflexivity.
  - cbn [dropped flat_map map lost_in]. rewrite !app_nil_r. match goal with |- (?x + ?y = ?z)%nat => change (y = z) end.
    assert (Lo' : forall e u, In e ev -> e = SRefuse u -> exists c, In (u, [Block c]) tab).
    { intros e u He Ee. apply (Lo (i, u)). apply in_or_app. right. apply in_or_app. left. cbn [flat_map]. rewrite app_nil_r. apply in_flat_map. exists e. split; [exact He|]. rewrite Ee. left. reflexivity. }
    clear Lo Ed Er. induction ev as [|e ev IH]; [reflexivity|]. cbn [flat_map]. rewrite map_app, weigh_app, count_occ_app. f_equal; [|apply IH; intros; eapply Lo'; [right|]; eassumption].
    destruct e as [t' v p|v|a]; try reflexivity. cbn [map weigh fold_right snd]. rewrite Nat.add_0_r. apply (One (i, v)). apply (Lo' _ v (or_introl eq_refl) eq_refl).
  - cbn [dropped flat_map map weigh fold_right lost_in app snd fst]. rewrite !app_nil_r, !Nat.add_0_r. apply (One (i, u)). apply (Lo (i, u)). apply in_or_app. left. left. reflexivity.
Qed.

(** The main count, for one Interest. *)
Lemma relay_counts : forall ops rns fw b, r_inv ops rns fw -> exists way slack,
  (times b (grounded rns) + count_occ Z.eq_dec (lost (fw_heap fw) rns) b + way = times b (came ops))%nat /\
  (times b (hopped rns) + slack = far dist b (came ops))%nat /\
  (l_queue (fw_net fw) = [] -> way = 0%nat /\ (count_occ Z.eq_dec (lost (fw_heap fw) rns) b = 0%nat -> slack = 0%nat)).
Proof.
  intros ops rns fw b I. destruct (accounts ops rns fw I) as (tab & way & Tb & Nd & Lo & Wq & A & B).
  set (m1 := one b). set (md := here b).
  pose proof (A m1) as A1. pose proof (B m1) as B1. pose proof (A md) as A2. pose proof (B md) as B2.
  assert (L : weigh m1 (lost_at tab rns) = count_occ Z.eq_dec (lost (fw_heap fw) rns) b).
  { rewrite lost_split. unfold lost_at, m1. apply lost_count; assumption. }
  assert (H1 : weigh (fun i c => m1 (node (w_peer w i)) c) (where_ (hopped rns)) = times b (hopped rns)) by apply weigh_one.
  assert (H2 : weigh (fun i c => m1 (node i) c) (where_ (hopped rns)) = times b (hopped rns)) by apply weigh_one.
  assert (Hd : weigh (fun i c => md (node i) c) (where_ (hopped rns)) = (weigh (fun i c => md (node (w_peer w i)) c) (where_ (hopped rns)) + times b (hopped rns))%nat).
  { pose proof (c_sent _ _ _ (ri_core _ _ _ I)) as S. clear - S. unfold times. induction S as [|[[t i] c] l G S IH]; [reflexivity|]. cbn [where_ map weigh fold_right filter fst snd].
    fold (where_ l). unfold weigh in IH. rewrite IH. destruct G as [G _]. unfold md, here. destruct (Z.eqb_spec c b) as [->|]; cbn [length]; lia. }
  assert (Gd : weigh md (where_ (grounded rns)) = 0%nat).
  { pose proof (c_ground _ _ _ (ri_core _ _ _ I)) as S. clear - S. induction S as [|[[t n] c] l [G _] S IH]; [reflexivity|]. cbn [where_ map weigh fold_right fst snd] in *. fold (where_ l).
    unfold weigh in IH. rewrite IH. unfold md, here. destruct (Z.eqb_spec c b) as [->|]; lia. }
  rewrite H1, L in A1. rewrite H2 in B1. unfold m1 in B1 at 1 2. rewrite !weigh_one in B1. fold m1 in B1. rewrite Hd, Gd in B2. unfold md in B2 at 2. rewrite weigh_far in B2.
  exists (weigh m1 way), (weigh md way + weigh md (lost_at tab rns))%nat. split; [|split].
  - assert (E : times b (map at_node (relayed rns)) = weigh m1 (where_ (map at_node (relayed rns)))) by (symmetry; apply weigh_one). lia.
  - lia.
  - intros Q. rewrite (Wq Q) in *. cbn [weigh fold_right] in *. split; [reflexivity|]. intros L0. rewrite L0 in L. clear - L.
    induction (lost_at tab rns) as [|[n c] l IH]; [reflexivity|]. cbn [weigh fold_right fst snd] in *. unfold m1 at 1, one in L. unfold md at 1, here. destruct (c =? b); [discriminate|]. cbn in L |- *. apply IH. exact L.
Qed.

Lemma weigh_all : forall l, weigh dist (where_ l) = all_far dist l.
Proof. induction l as [|x l IH]; [reflexivity|]. cbn [where_ map weigh fold_right all_far fst snd]. fold (where_ l) (all_far dist l). unfold weigh in IH. rewrite IH. reflexivity. Qed.

(** The number of hops, all together, and so of events, is bounded beforehand. *)
Lemma relay_bound : forall ops rns fw, r_inv ops rns fw -> (events ops <= 3 * all_far dist (came ops))%nat.
Proof.
  intros ops rns fw I. destruct (accounts ops rns fw I) as (tab & way & _ & _ & _ & _ & A & B). specialize (A dist). specialize (B dist). destruct I as [C N].
  pose proof (blocks_events w ndn Ln Hn _ _ _ (c_ndn _ _ _ C) (c_run _ _ _ C)) as E. rewrite N, <- hopped_calls in E.
  assert (Hd : weigh (fun i c => dist (node i) c) (where_ (hopped rns)) = (weigh (fun i c => dist (node (w_peer w i)) c) (where_ (hopped rns)) + length (hopped rns))%nat).
  { pose proof (c_sent _ _ _ C) as S. clear - S. induction S as [|[[t i] c] l G S IH]; [reflexivity|]. cbn [where_ map weigh fold_right length fst snd].
    fold (where_ l). unfold weigh in IH. rewrite IH. destruct G as [G _]. lia. }
  rewrite (weigh_all (came ops)) in B. lia.
Qed.

Lemma relay_run_app : forall a b fw, r_run w ndn devs react fw (a ++ b) =
  obind (r_run w ndn devs react fw a) (fun x => obind (r_run w ndn devs react (fst x) b) (fun y => Some (Ok (fst y, snd x ++ snd y)))).
Proof.
  induction a as [|o a IH]; intros b fw; cbn [app r_run].
  - cbn [obind fst snd]. destruct (r_run w ndn devs react fw b) as [[[f2 n2]| | |]|]; reflexivity.
  - destruct (r_step w ndn devs react fw o) as [[[f1 n1]| | |]|]; try reflexivity. cbn [obind fst snd]. rewrite IH.
    destruct (r_run w ndn devs react f1 a) as [[[f2 n2]| | |]|]; try reflexivity. cbn [obind fst snd].
    destruct (r_run w ndn devs react f2 b) as [[[f3 n3]| | |]|]; try reflexivity. cbn [obind fst snd]. rewrite app_assoc. reflexivity.
Qed.

Lemma relay_settles : forall ops fw rns, (forall t n b, In (RIn t n b) ops -> may b n GroundFace) -> relay w ndn devs react ops = Some (Ok (fw, rns)) ->
  exists k fw' rns', relay w ndn devs react (ops ++ repeat RNext k) = Some (Ok (fw', rns')) /\ l_queue (fw_net fw') = [].
Proof.
  intros ops fw rns Mo R. destruct (relay_inv ops _ Mo R) as (fw' & rns' & Eq & I). injection Eq as <- <-.
  assert (G : forall j more fw rns, (3 * all_far dist (came ops) - events (ops ++ more) <= j)%nat -> r_inv (ops ++ more) rns fw -> came more = [] ->
    exists k fw2 out, r_run w ndn devs react fw (repeat RNext k) = Some (Ok (fw2, out)) /\ l_queue (fw_net fw2) = []).
  { clear fw rns R I. induction j as [|j IH]; intros more fw rns Le I Cm.
    - destruct (l_queue (fw_net fw)) eqn:Q; [exists 0%nat, fw, []; auto|]. exfalso. destruct I as [C N].
      destruct (core_next _ _ _ C ltac:(rewrite Q; discriminate)) as (fw2 & out & S & _). destruct (step_inv _ _ _ RNext _ (mkRInv _ _ _ C N) ltac:(discriminate) S) as (fw3 & o3 & E3 & I3).
      pose proof (relay_bound _ _ _ I3) as Bd. rewrite !came_app, Cm in Bd. cbn [came flat_map] in Bd. rewrite !app_nil_r in Bd.
      unfold events in *. rewrite filter_app, app_length in Bd. cbn [filter length] in Bd. lia.
    - destruct (l_queue (fw_net fw)) eqn:Q; [exists 0%nat, fw, []; auto|]. destruct I as [C N].
      destruct (core_next _ _ _ C ltac:(rewrite Q; discriminate)) as (fw2 & out & S & _). destruct (step_inv _ _ _ RNext _ (mkRInv _ _ _ C N) ltac:(discriminate) S) as (fw3 & o3 & E3 & I3).
      injection E3 as <- <-. rewrite <- app_assoc in I3.
      assert (Le3 : (3 * all_far dist (came ops) - events (ops ++ more ++ [RNext]) <= j)%nat).
      { unfold events in *. rewrite !filter_app, !app_length in *. cbn [filter length] in *. lia. }
      destruct (IH (more ++ [RNext]) fw2 (rns ++ out) Le3 I3 ltac:(rewrite came_app, Cm; reflexivity)) as (k & fw4 & o4 & R4 & Q4).
      exists (1 + k)%nat, fw4, (out ++ o4). split; [|exact Q4]. cbn [plus repeat r_run]. rewrite S. cbn [obind fst snd]. rewrite R4. reflexivity. }
  destruct (G _ [] fw rns (le_n _) ltac:(rewrite app_nil_r; exact I) eq_refl) as (k & fw2 & out & R2 & Q2).
  exists k, fw2, (rns ++ out). split; [|exact Q2]. unfold relay in *. rewrite relay_run_app, R. cbn [obind fst snd]. rewrite R2. reflexivity.
Qed.

(** ** Time *)
Lemma relay_time : forall a ops rns fw, (forall t i j u, a <= w_delay w t i j + w_tx w (w_rate w i) u) -> 0 <= a -> r_inv ops rns fw ->
  forall t n b, In (t, n, b) (grounded rns) -> exists t0 n0, In (t0, n0, b) (came ops) /\ t0 + Z.of_nat (dist n0 b) * a <= t.
Proof.
  intros a ops rns fw Da Ap I. pose proof (ri_core _ _ _ I) as C. pose proof (c_book _ _ _ C) as Bk.
  assert (Src : forall x, In x (hopped rns) -> let '(t, i, b) := x in
    In (t, node i, b) (came ops) \/ exists r, In (t, r, b) (relayed rns) /\ node r = node i).
  { intros [[t i] b] H. assert (Hp : In (t, node i, b) (map at_node (hopped rns) ++ grounded rns)).
    { apply in_or_app. left. apply in_map_iff. exists (t, i, b). split; [reflexivity|exact H]. }
    apply (Permutation_in _ Bk) in Hp. apply in_app_or in Hp. destruct Hp as [Hp|Hp]; [left; exact Hp|right].
    apply in_map_iff in Hp. destruct Hp as ([[t' r] b'] & E & Hp). unfold at_node in E. cbn in E. injection E as -> E ->. exists r. auto. }
  assert (Up : forall x, In x (relayed rns) -> let '(t, r, b) := x in
    exists t0 i, In (t0, i, b) (hopped rns) /\ node (w_peer w i) = node r /\ t0 + a <= t /\ dist (node i) b = S (dist (node r) b)).
  { intros [[t r] b] H. rewrite relayed_gots in H. unfold gots in H. apply in_flat_map in H. destruct H as (f & Hf & H). destruct f as [m|t' r' b']; [destruct H|]. destruct H as [[= <- <- <-]|[]].
    destruct (got_from w ndn Ln Hn _ _ _ _ _ _ (c_ndn _ _ _ C) (c_run _ _ _ C) Hf) as (t0 & t1 & u & Hs & Le & Et).
    assert (Hh : In (t0, w_peer w r', b') (hopped rns)) by (rewrite hopped_calls; apply in_flat_map; eexists; split; [exact Hs|left; reflexivity]).
    exists t0, (w_peer w r'). split; [exact Hh|]. pose proof (c_sent _ _ _ C) as S. rewrite Forall_forall in S. apply S in Hh. destruct Hh as [Hd _]. rewrite (ws_peer w Ln) in Hd |- *.
    split; [reflexivity|]. split; [|exact Hd]. pose proof (Da t1 (w_peer w r') r' u). lia. }
  (* go back from any point: distances grow, so this ends at some Interest that came; bound the distance by the largest one *)
  set (top := S (fold_right (fun x k => Nat.max (dist (node (snd (fst x))) (snd x)) k) 0%nat (hopped rns))).
  assert (Top : forall t i b, In (t, i, b) (hopped rns) -> (dist (node i) b < top)%nat).
  { intros t i b H. unfold top. clear - H. induction (hopped rns) as [|x l IH]; [destruct H|]. cbn [fold_right]. destruct H as [->|H]; [cbn; lia|]. specialize (IH H). lia. }
  assert (Back : forall k t i b, In (t, i, b) (hopped rns) -> (top - dist (node i) b <= k)%nat ->
    exists t0 n0, In (t0, n0, b) (came ops) /\ (dist (node i) b <= dist n0 b)%nat /\ t0 + (Z.of_nat (dist n0 b) - Z.of_nat (dist (node i) b)) * a <= t).
  { induction k as [|k IH]; intros t i b H Le; pose proof (Top _ _ _ H) as T; [lia|]. destruct (Src _ H) as [Hc|(r & Hr & En)].
    - exists t, (node i). split; [exact Hc|]. split; [lia|]. rewrite Z.sub_diag. lia.
    - destruct (Up _ Hr) as (t1 & j & Hj & Ej & Lt & Dj). rewrite En in Dj. pose proof (Top _ _ _ Hj) as Tj.
      destruct (IH t1 j b Hj ltac:(lia)) as (t0 & n0 & Hc & Ge & Tm). exists t0, n0. split; [exact Hc|]. split; [lia|]. rewrite Dj in Tm, Ge. nia. }
  intros t n b H. assert (Hp : In (t, n, b) (map at_node (hopped rns) ++ grounded rns)) by (apply in_or_app; right; exact H).
  apply (Permutation_in _ Bk) in Hp. apply in_app_or in Hp. destruct Hp as [Hp|Hp].
  - exists t, n. split; [exact Hp|]. pose proof (c_ground _ _ _ C) as Gr. rewrite Forall_forall in Gr. apply Gr in H. destruct H as [H _]. cbn [fst snd] in H. rewrite H. lia.
  - apply in_map_iff in Hp. destruct Hp as ([[t' r] b'] & E & Hp). unfold at_node in E. cbn in E. injection E as -> <- ->.
    destruct (Up _ Hp) as (t1 & i & Hi & Ei & Lt & Di). pose proof (c_ground _ _ _ C) as Gr. rewrite Forall_forall in Gr. apply Gr in H. destruct H as [H _]. cbn [fst snd] in H.
    destruct (Back _ t1 i b Hi (le_n _)) as (t0 & n0 & Hc & Ge & Tm). exists t0, n0. split; [exact Hc|]. rewrite Di, H in Tm, Ge. nia.
Qed.
End Relaying.
