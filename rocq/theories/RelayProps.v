(** C73, C74. *)
From Coq Require Import ZArith List Lia Bool Arith Permutation Sorted.
From Verif Require Import Base SatAddrModel SatAddrProofs ConstellationModel ConstellationSpec ConstellationProofs ConstellationProps
  IslModel IslSpec IslProofs IslProps GeoTagModel GeoTagSpec GeoTagProofs GeoTagProps GeoTagRoute GeoTagNetProps
  DeviceModel DeviceSpec DeviceProofs ChannelModel LinkModel LinkSpec LinkProofs LinkDevices
  IslNetSpec IslNetProps IslCount FaceModel FaceSpec FaceProofs FaceNetSpec FaceDownProps FaceIslProps RelayModel RelaySpec RelayFaces RelayProofs.
Import ListNotations.
Open Scope Z_scope.

(** ** The network that installing leaves *)
Lemma half_even : forall i, Nat.even i = true -> (2 * (i / 2) = i)%nat.
Proof. intros i E. apply Nat.even_spec in E. destruct E as [k ->]. rewrite (Nat.mul_comm 2 k), Nat.div_mul by lia. lia. Qed.
Lemma half_odd : forall i, Nat.even i = false -> (2 * (i / 2) + 1 = i)%nat.
Proof.
  intros i E. assert (O : Nat.odd i = true) by (rewrite <- Nat.negb_even, E; reflexivity). apply Nat.odd_spec in O. destruct O as [k ->].
  rewrite (Nat.mul_comm 2 k), Nat.div_add_l by lia. cbn. lia.
Qed.
Lemma installed_channel_ok : forall k, installed_channel k = Ok (mkSS [2 * k; 2 * k + 1]%nat true).
Proof. reflexivity. Qed.

(** C73.  It is a network of pairs: everything proved of such networks (C67, C70) applies. *)
Theorem installed_is_linked : forall tx rate delay success fits, (forall r u, 0 <= tx r u) -> (forall t i j, 0 <= delay t i j) ->
  w_linked (installed_net tx rate delay success fits).
Proof.
  intros tx rate delay success fits Tx De. constructor; [exact Tx|exact De|exact other_other|].
  intros i. cbn [w_channel w_peer installed_net]. rewrite installed_channel_ok. destruct (Nat.even i) eqn:E.
  - left. rewrite (half_even i E). do 3 f_equal. lia.
  - right. pose proof (half_odd i E) as H. rewrite H. do 2 f_equal. lia.
Qed.
Print Assumptions installed_is_linked.

Lemma nth_install : forall links k0 k a b, nth_error links k = Some (a, b) ->
  nth_error (install_pairs k0 links) (2 * k) = Some (IslModel.mkIsl a (k0 + k)) /\ nth_error (install_pairs k0 links) (2 * k + 1) = Some (IslModel.mkIsl b (k0 + k)).
Proof.
  induction links as [|[x y] links IH]; intros k0 k a b H; [destruct k; discriminate|]. destruct k as [|k].
  - injection H as -> ->. rewrite Nat.add_0_r. split; reflexivity.
  - cbn [nth_error] in H. destruct (IH (S k0) k a b H) as [A B]. replace (k0 + S k)%nat with (S k0 + k)%nat by lia.
    replace (2 * S k)%nat with (S (S (2 * k))) by lia. replace (S (S (2 * k)) + 1)%nat with (S (S (2 * k + 1))) by lia. split; [exact A|exact B].
Qed.
Lemma install_length : forall links k0, length (install_pairs k0 links) = (2 * length links)%nat.
Proof. induction links as [|[a b] l IH]; intros k0; [reflexivity|]. cbn [install_pairs install_pair app length]. rewrite IH. lia. Qed.

Lemma find_chan : forall links k0 s k a b n, nth_error links k = Some (a, b) -> n = a \/ (n = b /\ a <> b) ->
  find_device s (install_pairs k0 links) n (k0 + k) = Some (s + 2 * k + (if Nat.eq_dec n a then 0 else 1))%nat.
Proof.
  induction links as [|[x y] links IH]; intros k0 s k a b n H N; [destruct k; discriminate|]. cbn [install_pairs install_pair app find_device isl_node isl_chan fst snd]. destruct k as [|k].
  - injection H as -> ->. rewrite !Nat.add_0_r, Nat.eqb_refl, !andb_true_r. destruct N as [->|[-> N]].
    + rewrite Nat.eqb_refl. destruct (Nat.eq_dec a a); [f_equal; lia|contradiction].
    + destruct (Nat.eqb_spec a b); [contradiction|]. rewrite Nat.eqb_refl. destruct (Nat.eq_dec b a); [congruence|f_equal; lia].
  - cbn [nth_error] in H. destruct (Nat.eqb_spec k0 (k0 + S k)) as [E|_]; [lia|]. rewrite !andb_false_r. replace (k0 + S k)%nat with (S k0 + k)%nat by lia.
    rewrite (IH (S k0) (S (S s)) k a b n H N). f_equal. lia.
Qed.

(** The device at one end of a link and the one it is joined with. *)
Lemma link_devices : forall links k n m, GeoTagSpec.ends links k n m -> n <> m -> exists i e,
  find_device 0 (install_pairs 0 links) n k = Some i /\ nth_error (install_pairs 0 links) i = Some (IslModel.mkIsl n k) /\
  nth_error (install_pairs 0 links) (other i) = Some e /\ isl_node e = m /\ isl_chan e = k.
Proof.
  intros links k n m E N. assert (Ev : Nat.even (2 * k) = true) by (apply Nat.even_spec; exists k; lia).
  assert (Od : Nat.even (2 * k + 1) = false) by (rewrite <- Nat.negb_odd; assert (O : Nat.odd (2 * k + 1) = true) by (apply Nat.odd_spec; exists k; lia); rewrite O; reflexivity).
  destruct E as [E|E]; destruct (nth_install links 0 k _ _ E) as [A B].
  - exists (2 * k)%nat, (IslModel.mkIsl m k). split; [|split; [exact A|split; [|split; reflexivity]]].
    + pose proof (find_chan links 0 0 k n m n E (or_introl eq_refl)) as F. cbn [plus] in F. rewrite F. destruct (Nat.eq_dec n n); [f_equal; lia|contradiction].
    + unfold other. rewrite Ev. replace (S (2 * k)) with (2 * k + 1)%nat by lia. exact B.
  - exists (2 * k + 1)%nat, (IslModel.mkIsl m k). split; [|split; [exact B|split; [|split; reflexivity]]].
    + pose proof (find_chan links 0 0 k m n n E (or_intror (conj eq_refl (not_eq_sym N)))) as F. cbn [plus] in F. rewrite F. destruct (Nat.eq_dec n m); [contradiction|f_equal; lia].
    + unfold other. rewrite Od. replace (Nat.pred (2 * k + 1)) with (2 * k)%nat by lia. exact A.
Qed.

(** C73.  What is wired to what: device [i] and the device it is joined with are on neighbouring satellites, and there is
    such a pair of devices for any two neighbours. *)
Theorem installed_neighbours : forall h id P S adds c addrs ids links tx rate delay success fits,
  is_u16 id -> id <> 0 -> Z.of_nat P <= 65536 -> Z.of_nat S <= 65536 ->
  run_adds h (con_new id P S) adds = Ok (c, addrs) -> length adds = (P * S)%nat -> NoDup (map dev_of adds) ->
  Forall (eq id) ids -> length ids = (P * S)%nat -> install_grid ids c = Ok links ->
  let w := installed_net tx rate delay success fits in let devs := install_pairs 0 links in
  (forall i d, nth_error devs i = Some d -> exists e x y, nth_error devs (w_peer w i) = Some e /\ isl_chan e = isl_chan d /\ isl_chan d = (i / 2)%nat /\
     In (fst x, snd x, isl_node d) adds /\ In (fst y, snd y, isl_node e) adds /\ torus_neighbour P S x y) /\
  (forall x y n m, torus_neighbour P S x y -> In (fst x, snd x, n) adds -> In (fst y, snd y, m) adds ->
     exists i d e, nth_error devs i = Some d /\ nth_error devs (w_peer w i) = Some e /\ isl_node d = n /\ isl_node e = m).
Proof.
  intros h id P S adds c addrs ids links tx rate delay success fits Hid Hid0 HP HS R Full ND Ids Il Il' w devs.
  pose proof (d_adm h id P S adds c addrs R) as Ad.
  assert (Links : links = dev_links (placed adds) (coord_links P S)) by (eapply d_links; eauto).
  assert (Pl : forall x, In x (slots P S) -> In (fst x, snd x, placed adds x) adds).
  { intros [p i] Hx. apply in_slots in Hx. cbn [fst snd] in *. eapply d_placed; eauto; tauto. }
  split.
  - intros i d Hd.
    assert (Lt : (i / 2 < length links)%nat).
    { assert (X : (i < 2 * length links)%nat) by (rewrite <- (install_length links 0); apply nth_error_Some; unfold devs in Hd; congruence). apply Nat.div_lt_upper_bound; lia. }
    destruct (nth_error links (i / 2)) as [[a b]|] eqn:E; [|apply nth_error_None in E; lia].
    destruct (nth_install links 0 (i / 2) a b E) as [A B]. cbn [plus] in A, B.
    pose proof (nth_error_In _ _ E) as Hin. rewrite Links in Hin. unfold dev_links in Hin. apply in_map_iff in Hin. destruct Hin as ([x y] & Eq & Hc). cbn [fst snd] in Eq. injection Eq as <- <-.
    pose proof (links_in_grid _ _ _ _ Hc) as (G1 & G2 & _). assert (T : torus_neighbour P S x y) by (apply links_orientation; auto). assert (T' : torus_neighbour P S y x) by (apply links_orientation; auto).
    cbn [w w_peer installed_net]. destruct (Nat.even i) eqn:Ev.
    + pose proof (half_even i Ev) as Hi. rewrite Hi in A. replace (2 * (i / 2) + 1)%nat with (Datatypes.S i) in B by lia. unfold devs in *. rewrite A in Hd. injection Hd as <-.
      eexists. exists x, y. split; [exact B|]. cbn [isl_chan isl_node]. auto 6.
    + pose proof (half_odd i Ev) as Hi. rewrite Hi in B. replace (2 * (i / 2))%nat with (Nat.pred i) in A by lia. unfold devs in *. rewrite B in Hd. injection Hd as <-.
      eexists. exists y, x. split; [exact A|]. cbn [isl_chan isl_node]. auto 6.
  - intros x y n m T Hn Hm.
    destruct (d_neighbour_link h id P S adds c addrs ids links Hid Hid0 R Full Ids Il Il' x y T) as (k & E).
    destruct x as [p i], y as [a b]. cbn [fst snd] in *. rewrite (d_placed_eq h id P S adds c addrs R _ _ _ Hn), (d_placed_eq h id P S adds c addrs R _ _ _ Hm) in E.
    assert (N : n <> m).
    { intros ->. assert (X : (p, i) = (a, b)).
      { destruct Ad as [_ Fa]. rewrite Forall_forall in Fa. pose proof (Fa _ Hn) as G1. pose proof (Fa _ Hm) as G2. cbn in G1, G2.
        eapply d_inj; eauto; try (apply in_slots; tauto). rewrite (d_placed_eq h id P S adds c addrs R _ _ _ Hn), (d_placed_eq h id P S adds c addrs R _ _ _ Hm). reflexivity. }
      injection X as -> ->. destruct T as [(_ & _ & Rn)|(_ & _ & Rn)]; apply ring_neighbour_spec in Rn; cbn in Rn; lia. }
    destruct (link_devices links k n m E N) as (j & e & _ & Ni & Ne & En & _). exists j, (IslModel.mkIsl n k), e. auto.
Qed.
Print Assumptions installed_neighbours.

(** ** Relaying on a launched constellation *)
(** All that a run depends on: the constellation as launched, its links, the forwarding tables and the Interests as the
    satellites see them, the devices and channels. *)
Record setting := mkSetting {
  g_host : host; g_planes : nat; g_size : nat;
  g_adds : list (nat * nat * nat); g_addrs : list sat_address; g_links : list (nat * nat);
  g_table : nat -> list face;
  g_tag : Z -> Z * nat * nat;
  g_request : Z -> Z -> nat -> face -> request;
  g_tx : Z -> Z -> Z; g_rate : nat -> Z; g_delay : Z -> nat -> nat -> Z; g_success : Z -> Z -> nat -> nat -> bool; g_fits : nat -> list Z -> Z -> bool;
  g_ndn : Z }.

Definition g_net (s : setting) : islnet := installed_net (g_tx s) (g_rate s) (g_delay s) (g_success s) (g_fits s).
Definition g_react (s : setting) (t b : Z) (n : nat) (f : face) : result (list action) :=
  after_receive_interest (launched_net (g_adds s) (g_addrs s) (g_links s) (g_planes s) (g_size s)) (g_host s) n (g_table s n) (g_request s t b n f).
Definition g_relay (s : setting) (ops : list rop) := relay (g_net s) (g_ndn s) (install_pairs 0 (g_links s)) (g_react s) ops.

(** The slot of a satellite; the hops from there to the slot in the tag. *)
Fixpoint slot_of (adds : list (nat * nat * nat)) (n : nat) : Z * Z :=
  match adds with
  | [] => (0, 0)
  | (p, i, d) :: l => if (d =? n)%nat then (Z.of_nat p, Z.of_nat i) else slot_of l n
  end.
Definition g_dist (s : setting) (n : nat) (b : Z) : nat :=
  Z.to_nat (griddist (Z.of_nat (g_planes s)) (Z.of_nat (g_size s)) (slot_of (g_adds s) n) (Z.of_nat (snd (fst (g_tag s b))), Z.of_nat (snd (g_tag s b)))).

Record in_service (s : setting) : Prop := mkService {
  v_launched : exists id c ids, is_u16 id /\ id <> 0 /\ Z.of_nat (g_planes s) <= 65536 /\ Z.of_nat (g_size s) <= 65536 /\
    run_adds (g_host s) (con_new id (g_planes s) (g_size s)) (g_adds s) = Ok (c, g_addrs s) /\ length (g_adds s) = (g_planes s * g_size s)%nat /\
    NoDup (map dev_of (g_adds s)) /\ Forall (eq id) ids /\ length ids = (g_planes s * g_size s)%nat /\ install_grid ids c = Ok (g_links s);
  v_table : forall n f, In n (map dev_of (g_adds s)) -> (In f (g_table s n) <-> f = GroundFace \/ exists k m, f = IslFace k /\ GeoTagSpec.ends (g_links s) k n m);
  v_request : forall t b n f, rq_tag (g_request s t b n f) = Some (fst (fst (g_tag s b)), Z.of_nat (snd (fst (g_tag s b))), Z.of_nat (snd (g_tag s b))) /\
    rq_ingress (g_request s t b n f) = f /\ rq_sup (g_request s t b n f) <> SUPPRESS /\ forall g, rq_scope (g_request s t b n f) g = false;
  v_tx : forall r u, 0 <= g_tx s r u;
  v_delay : forall t i j, 0 <= g_delay s t i j;
  v_ndn : is_u16 (g_ndn s) }.

(** Interests come in at satellites and are tagged with a slot there is. *)
Definition from_ground (s : setting) (ops : list rop) : Prop := forall t n b, In (RIn t n b) ops ->
  In n (map dev_of (g_adds s)) /\ (snd (fst (g_tag s b)) < g_planes s)%nat /\ (snd (g_tag s b) < g_size s)%nat.

Section Service.
Variable s : setting.
Hypothesis V : in_service s.

Let P := g_planes s.
Let S := g_size s.
Let adds := g_adds s.
Let links := g_links s.
Definition g_dst (b : Z) : nat := placed (g_adds s) (snd (fst (g_tag s b)), snd (g_tag s b)).
Definition g_may (b : Z) (n : nat) (f : face) : Prop :=
  (snd (fst (g_tag s b)) < P)%nat /\ (snd (g_tag s b) < S)%nat /\
  exists p i, (p < P)%nat /\ (i < S)%nat /\ n = placed adds (p, i) /\ ingress_ok P S adds links (snd (fst (g_tag s b))) (snd (g_tag s b)) p i f.

Lemma g_linked : w_linked (g_net s).
Proof. apply installed_is_linked; [exact (v_tx s V)|exact (v_delay s V)]. Qed.

Lemma slot_of_found : forall l p i d, NoDup (map dev_of l) -> In (p, i, d) l -> slot_of l d = (Z.of_nat p, Z.of_nat i).
Proof.
  induction l as [|[[p' i'] d'] l IH]; intros p i d Nd H; [destruct H|]. cbn [slot_of]. cbn [map dev_of snd] in Nd. inversion Nd as [|? ? A B]; subst. destruct H as [[= -> -> ->]|H].
  - rewrite Nat.eqb_refl. reflexivity.
  - destruct (Nat.eqb_spec d' d) as [->|]; [|exact (IH _ _ _ B H)]. exfalso. apply A. apply in_map_iff. exists (p, i, d). split; [reflexivity|exact H].
Qed.

Lemma g_dist_placed : forall p i b, (p < P)%nat -> (i < S)%nat -> g_dist s (placed adds (p, i)) b = Z.to_nat (d_dist P S (snd (fst (g_tag s b))) (snd (g_tag s b)) (p, i)).
Proof.
  intros p i b Hp Hi. destruct (v_launched s V) as (id & c & ids & A1 & A2 & A3 & A4 & A5 & A6 & A7 & _).
  pose proof (d_placed _ _ _ _ _ _ _ A5 A6 p i Hp Hi) as Hin. unfold g_dist. unfold adds. rewrite (slot_of_found _ _ _ _ A7 Hin). reflexivity.
Qed.

Lemma dist_zero : forall q j p i, (q < P)%nat -> (j < S)%nat -> (p < P)%nat -> (i < S)%nat -> d_dist P S q j (p, i) = 0 -> (p, i) = (q, j).
Proof.
  intros q j p i Hq Hj Hp Hi D. unfold d_dist, griddist, zslot in D. cbn [fst snd] in D. rewrite !ringdist_spec in D by lia.
  assert (E1 : Z.of_nat p = Z.of_nat q) by lia. assert (E2 : Z.of_nat i = Z.of_nat j) by lia. f_equal; lia.
Qed.

Lemma dist_nonneg : forall q j p i, (p < P)%nat -> (i < S)%nat -> 0 <= d_dist P S q j (p, i).
Proof.
  intros q j p i Hp Hi. unfold d_dist, griddist. pose proof (ringdist_nonneg (Z.of_nat P) (fst (zslot (p, i))) (fst (zslot (q, j))) ltac:(lia)).
  pose proof (ringdist_nonneg (Z.of_nat S) (snd (zslot (p, i))) (snd (zslot (q, j))) ltac:(lia)). lia.
Qed.

Lemma g_here : forall t b n f, g_may b n f -> g_dist s n b = 0%nat -> n = g_dst b /\ g_react s t b n f = Ok [SendInterest GroundFace].
Proof.
  intros t b n f (Hq & Hj & p & i & Hp & Hi & -> & If) D. rewrite g_dist_placed in D by assumption.
  assert (Nn : 0 <= d_dist P S (snd (fst (g_tag s b))) (snd (g_tag s b)) (p, i)) by (apply dist_nonneg; assumption).
  pose proof (dist_zero _ _ p i Hq Hj Hp Hi ltac:(lia)) as E. injection E as -> ->. split; [reflexivity|].
  destruct (v_launched s V) as (id & c & ids & A1 & A2 & A3 & A4 & A5 & A6 & A7 & A8 & A9 & A10).
  apply (d_here (g_host s) id P S adds c (g_addrs s) ids links A1 A2 A3 A4 A5 A6 A7 A8 A9 A10 (g_table s) (g_request s t b) (fst (fst (g_tag s b))) _ _ Hq Hj (v_table s V) (v_request s V t b) f If).
Qed.

Lemma g_on : forall t b n f, g_may b n f -> g_dist s n b <> 0%nat ->
  exists k i e, g_react s t b n f = Ok [SendInterest (IslFace k)] /\ find_device 0 (install_pairs 0 links) n k = Some i /\
    nth_error (install_pairs 0 links) (w_peer (g_net s) i) = Some e /\ g_dist s n b = Datatypes.S (g_dist s (isl_node e) b) /\ g_may b (isl_node e) (IslFace (isl_chan e)).
Proof.
  intros t b n f (Hq & Hj & p & i & Hp & Hi & -> & If) D.
  destruct (v_launched s V) as (id & c & ids & A1 & A2 & A3 & A4 & A5 & A6 & A7 & A8 & A9 & A10).
  rewrite g_dist_placed in D by assumption.
  assert (N : (p, i) <> (snd (fst (g_tag s b)), snd (g_tag s b))).
  { intros E. injection E as -> ->. apply D. unfold d_dist, griddist, zslot. cbn [fst snd]. rewrite !ringdist_spec by lia. rewrite !Z.sub_diag. lia. }
  destruct (d_next (g_host s) id P S adds c (g_addrs s) ids links A1 A2 A3 A4 A5 A6 A7 A8 A9 A10 (g_table s) (g_request s t b) (fst (fst (g_tag s b))) _ _ Hq Hj (v_table s V) (v_request s V t b) p i f Hp Hi N If)
    as (k & a & a' & Ha & Ha' & Dd & Re & _ & En).
  assert (Nm : placed adds (p, i) <> placed adds (a, a')).
  { intros E. eapply d_inj in E; eauto; try (apply in_slots; auto). injection E as -> ->. lia. }
  destruct (link_devices links k _ _ En Nm) as (x & e & Fd & _ & Ne & Nn & Nc). exists k, x, e. split; [exact Re|]. split; [exact Fd|]. split; [exact Ne|]. rewrite Nn, Nc. split.
  - rewrite !g_dist_placed by assumption.
    assert (Z1 : 0 <= d_dist P S (snd (fst (g_tag s b))) (snd (g_tag s b)) (a, a')) by (apply dist_nonneg; assumption). lia.
  - split; [exact Hq|]. split; [exact Hj|]. exists a, a'. split; [exact Ha|]. split; [exact Ha'|]. split; [reflexivity|].
    right. exists k, p, i. split; [reflexivity|]. split; [exact Hp|]. split; [exact Hi|]. split; [|lia]. destruct En as [En|En]; [right|left]; exact En.
Qed.

Lemma g_came : forall ops, from_ground s ops -> forall t n b, In (RIn t n b) ops -> g_may b n GroundFace.
Proof.
  intros ops F t n b H. destruct (F t n b H) as (Hn & Hq & Hj). destruct (v_launched s V) as (id & c & ids & A1 & A2 & A3 & A4 & A5 & A6 & A7 & _).
  apply in_map_iff in Hn. destruct Hn as ([[p i] d] & <- & Hin). pose proof (d_placed_eq _ _ _ _ _ _ _ A5 _ _ _ Hin) as E.
  destruct (d_adm _ _ _ _ _ _ _ A5) as [_ Fa]. rewrite Forall_forall in Fa. pose proof (Fa _ Hin) as [G1 G2].
  split; [exact Hq|]. split; [exact Hj|]. exists p, i. split; [exact G1|]. split; [exact G2|]. split; [symmetry; exact E|]. left. reflexivity.
Qed.

Lemma g_inv : forall ops r, from_ground s ops -> g_relay s ops = Some r ->
  exists fw rns, r = Ok (fw, rns) /\ r_inv (g_net s) (g_ndn s) (install_pairs 0 links) g_dst (g_dist s) g_may ops rns fw.
Proof.
  intros ops r F R. exact (relay_inv (g_net s) (g_ndn s) (install_pairs 0 links) (g_react s) g_linked (v_ndn s V) g_dst (g_dist s) g_may g_here g_on ops r (g_came ops F) R).
Qed.
End Service.

Lemma in_times : forall b l, times b l <> 0%nat <-> exists t n, In (t, n, b) l.
Proof.
  intros b l. unfold times. split.
  - intros H. destruct (filter (fun x => snd x =? b) l) as [|[[t n] c] m] eqn:E; [contradiction|]. assert (Hi : In (t, n, c) (filter (fun x => snd x =? b) l)) by (rewrite E; left; reflexivity).
    apply filter_In in Hi. destruct Hi as [Hi Eb]. cbn in Eb. apply Z.eqb_eq in Eb. subst c. eauto.
  - intros (t & n & H) E. assert (Hi : In (t, n, b) (filter (fun x => snd x =? b) l)) by (apply filter_In; split; [exact H|apply Z.eqb_refl]). destruct (filter _ l); [destruct Hi|discriminate].
Qed.
Lemma came_of : forall s ops b, from_ground s ops -> times b (came ops) <> 0%nat -> (snd (fst (g_tag s b)) < g_planes s)%nat /\ (snd (g_tag s b) < g_size s)%nat.
Proof.
  intros s ops b F H. apply in_times in H. destruct H as (t & n & H). unfold came in H. apply in_flat_map in H. destruct H as (o & Ho & H). destruct o as [t' n' b'|]; [|destruct H].
  destruct H as [[= -> -> ->]|[]]. destruct (F _ _ _ Ho) as (_ & A). exact A.
Qed.

(** C74.  Nothing fails, and whatever leaves the links goes to the ground at the satellite in the slot of the tag. *)
Theorem relay_safe : forall s ops r, in_service s -> from_ground s ops -> g_relay s ops = Some r ->
  exists fw rns, r = Ok (fw, rns) /\ strayed rns = [] /\
    forall t n b, In (t, n, b) (grounded rns) -> In (snd (fst (g_tag s b)), snd (g_tag s b), n) (g_adds s).
Proof.
  intros s ops r V F R. destruct (g_inv s V ops r F R) as (fw & rns & -> & I). exists fw, rns. split; [reflexivity|]. pose proof (ri_core _ _ _ _ _ _ _ _ _ I) as C.
  split; [exact (c_stray _ _ _ _ _ _ _ _ _ C)|]. intros t n b H. 
  destruct (relay_counts (g_net s) (g_ndn s) (install_pairs 0 (g_links s)) (g_react s) (g_linked s V) (v_ndn s V) (g_dst s) (g_dist s) (g_may s) (g_here s V) (g_on s V) ops rns fw b I) as (way & slack & Cn & _).
  assert (G2 : (snd (fst (g_tag s b)) < g_planes s)%nat /\ (snd (g_tag s b) < g_size s)%nat).
  { apply (came_of s ops b F). assert (X : times b (grounded rns) <> 0%nat) by (apply in_times; eauto). lia. }
  pose proof (c_ground _ _ _ _ _ _ _ _ _ C) as G. rewrite Forall_forall in G. apply G in H. cbn [fst snd] in H. destruct H as [_ ->].
  destruct (v_launched s V) as (id & c & ids & A1 & A2 & A3 & A4 & A5 & A6 & A7 & _). exact (d_placed _ _ _ _ _ _ _ A5 A6 _ _ (proj1 G2) (proj2 G2)).
Qed.
Print Assumptions relay_safe.

(** C74.  Every Interest is accounted for, as often as it came: sent to the ground, lost on a link or at a full queue, or
    still under way; and it makes as many hops as its satellites are away from the slot, no more, and no fewer once all is
    at rest and none of it was lost. *)
Theorem relay_accounts : forall s ops fw rns b, in_service s -> from_ground s ops -> g_relay s ops = Some (Ok (fw, rns)) ->
  exists way,
    (times b (grounded rns) + count_occ Z.eq_dec (lost (fw_heap fw) rns) b + way = times b (came ops))%nat /\
    (times b (hopped rns) <= far (g_dist s) b (came ops))%nat /\
    (l_queue (fw_net fw) = [] -> way = 0%nat /\
       (count_occ Z.eq_dec (lost (fw_heap fw) rns) b = 0%nat -> times b (hopped rns) = far (g_dist s) b (came ops))).
Proof.
  intros s ops fw rns b V F R. destruct (g_inv s V ops _ F R) as (fw' & rns' & Eq & I). injection Eq as <- <-.
  destruct (relay_counts (g_net s) (g_ndn s) (install_pairs 0 (g_links s)) (g_react s) (g_linked s V) (v_ndn s V) (g_dst s) (g_dist s) (g_may s) (g_here s V) (g_on s V) ops rns fw b I) as (way & slack & C1 & C2 & C3).
  exists way. split; [exact C1|]. split; [lia|]. intros Q. destruct (C3 Q) as [W S]. split; [exact W|]. intros L. specialize (S L). lia.
Qed.
Print Assumptions relay_accounts.

(** C74.  What it takes: the number of events is bounded by the hops to go, and letting time pass leads to rest. *)
Theorem relay_ends : forall s ops fw rns, in_service s -> from_ground s ops -> g_relay s ops = Some (Ok (fw, rns)) ->
  (events ops <= 3 * all_far (g_dist s) (came ops))%nat /\
  exists k fw' rns', g_relay s (ops ++ repeat RNext k) = Some (Ok (fw', rns')) /\ l_queue (fw_net fw') = [].
Proof.
  intros s ops fw rns V F R. split.
  - destruct (g_inv s V ops _ F R) as (fw' & rns' & Eq & I). injection Eq as <- <-.
    exact (relay_bound (g_net s) (g_ndn s) (install_pairs 0 (g_links s)) (g_react s) (g_linked s V) (v_ndn s V) (g_dst s) (g_dist s) (g_may s) (g_here s V) (g_on s V) ops rns fw I).
  - exact (relay_settles (g_net s) (g_ndn s) (install_pairs 0 (g_links s)) (g_react s) (g_linked s V) (v_ndn s V) (g_dst s) (g_dist s) (g_may s) (g_here s V) (g_on s V) ops fw rns (g_came s V ops F) R).
Qed.
Print Assumptions relay_ends.

(** C74.  And no Interest is faster than its hops: if a hop takes at least [a], at the ground after [n] hops not before
    [n] times [a]. *)
Theorem relay_takes_time : forall s ops fw rns a, in_service s -> from_ground s ops -> g_relay s ops = Some (Ok (fw, rns)) ->
  0 <= a -> (forall t i j u, a <= g_delay s t i j + g_tx s (g_rate s i) u) ->
  forall t n b, In (t, n, b) (grounded rns) -> exists t0 n0, In (RIn t0 n0 b) ops /\ t0 + Z.of_nat (g_dist s n0 b) * a <= t.
Proof.
  intros s ops fw rns a V F R Ap Da t n b H. destruct (g_inv s V ops _ F R) as (fw' & rns' & Eq & I). injection Eq as <- <-.
  destruct (relay_time (g_net s) (g_ndn s) (install_pairs 0 (g_links s)) (g_react s) (g_linked s V) (v_ndn s V) (g_dst s) (g_dist s) (g_may s) (g_here s V) (g_on s V) a ops rns fw Da Ap I t n b H) as (t0 & n0 & Hc & Le).
  exists t0, n0. split; [|exact Le]. unfold came in Hc. apply in_flat_map in Hc. destruct Hc as (o & Ho & Hc). destruct o as [t' n' b'|]; [|destruct Hc]. destruct Hc as [[= -> -> ->]|[]]. exact Ho.
Qed.
Print Assumptions relay_takes_time.

(** ** A case: three planes of four *)
(** The faces on the devices of a node, and the one to the ground, are such a table. *)
Lemma in_install : forall links k0 n k, In (IslModel.mkIsl n k) (install_pairs k0 links) <-> exists j m, k = (k0 + j)%nat /\ GeoTagSpec.ends links j n m.
Proof.
  induction links as [|[a b] l IH]; intros k0 n k; cbn [install_pairs install_pair app fst snd].
  - split; [intros []|]. intros (j & m & _ & [H|H]); destruct j; discriminate.
  - split.
    + intros [[= -> ->]|[[= -> ->]|H]]; [exists 0%nat, b; split; [lia|left; reflexivity]|exists 0%nat, a; split; [lia|right; reflexivity]|].
      apply IH in H. destruct H as (j & m & -> & E). exists (Datatypes.S j), m. split; [lia|exact E].
    + intros (j & m & -> & E). destruct j as [|j].
      * rewrite Nat.add_0_r. destruct E as [[= -> ->]|[= -> ->]]; [left|right; left]; reflexivity.
      * right. right. apply IH. exists j, m. split; [lia|exact E].
Qed.
Lemma faces_table : forall links n f, In f (ex_faces links n) <-> f = GroundFace \/ exists k m, f = IslFace k /\ GeoTagSpec.ends links k n m.
Proof.
  intros links n f. unfold ex_faces. cbn [In]. split.
  - intros [<-|H]; [left; reflexivity|]. apply in_map_iff in H. destruct H as ([d k] & <- & H). apply filter_In in H. destruct H as [H E]. cbn [isl_node isl_chan] in *. apply Nat.eqb_eq in E. subst d.
    apply in_install in H. destruct H as (j & m & -> & H). right. exists j, m. split; [reflexivity|exact H].
  - intros [->|(k & m & -> & H)]; [left; reflexivity|]. right. apply in_map_iff. exists (IslModel.mkIsl n k). split; [reflexivity|]. apply filter_In. split; [|cbn; apply Nat.eqb_refl].
    apply in_install. exists k, m. split; [reflexivity|exact H].
Qed.

Definition case_launch := run_adds LittleEndian (con_new 7 3 4) ex_adds.
Definition case_links : list (nat * nat) := match case_launch with Ok (c, _) => match install_grid (repeat 7 12) c with Ok l => l | _ => [] end | _ => [] end.
Definition case_tag (b : Z) : Z * nat * nat := if b <? 10 then (7, 2%nat, 2%nat) else if b <? 20 then (7, 0%nat, 0%nat) else (7, 1%nat, 3%nat).
(** A link takes 3 and sending 5; what is sent at 40 or later is lost; one packet can wait at a device. *)
Definition case_setting : setting :=
  mkSetting LittleEndian 3 4 ex_adds (match case_launch with Ok (_, a) => a | _ => [] end) case_links (ex_faces case_links)
    case_tag (fun t b _ f => ex_ctx (fst (fst (case_tag b)), Z.of_nat (snd (fst (case_tag b))), Z.of_nat (snd (case_tag b))) f)
    (fun _ _ => 5) (fun _ => 1) (fun _ _ _ => 3) (fun t _ _ _ => t <? 40) (fun _ q _ => Nat.ltb (length q) 1) 30000.

Lemma nodup_case : NoDup (map dev_of ex_adds).
Proof. vm_compute. repeat (constructor; [cbn; lia|]). constructor. Qed.
Lemma case_in_service : in_service case_setting.
Proof.
  constructor; cbn [case_setting g_host g_planes g_size g_adds g_addrs g_links g_table g_tag g_request g_tx g_delay g_ndn].
  - exists 7, (match case_launch with Ok (c, _) => c | _ => con_new 7 3 4 end), (repeat 7 12).
    split; [unfold is_u16; lia|]. split; [lia|]. split; [lia|]. split; [lia|]. split; [vm_compute; reflexivity|]. split; [reflexivity|].
    split; [apply nodup_case|]. split; [repeat constructor|]. split; [reflexivity|]. vm_compute. reflexivity.
  - intros n f _. apply faces_table.
  - intros t b n f. cbn [ex_ctx rq_tag rq_ingress rq_sup rq_scope]. repeat split. discriminate.
  - intros; lia.
  - intros; lia.
  - unfold is_u16. lia.
Qed.

(** Interest 1 goes from (0,0) to (2,2) in three hops; 2 and 3 follow on the same link, of which 3 is refused; 11 is
    already there; 21, which comes later, is lost. *)
Definition case_ops : list rop := [RIn 0 0 1; RIn 0 0 2; RIn 0 0 3; RIn 2 0 11] ++ repeat RNext 18 ++ [RIn 50 0 21; RNext].
Example relay_case :
  from_ground case_setting case_ops /\
  match g_relay case_setting case_ops with
  | Some (Ok (fw, rns)) => l_queue (fw_net fw) = [] /\ grounded rns = [(2, 0%nat, 11); (24, 22%nat, 1); (29, 22%nat, 2)] /\ lost (fw_heap fw) rns = [3; 21]
  | _ => False
  end.
Proof.
  split.
  - intros t n b H. vm_compute in H. repeat (destruct H as [H|H]; [try discriminate; injection H as <- <- <-; vm_compute; repeat split; auto 20 with arith|]). destruct H.
  - vm_compute. repeat split.
Qed.
Example wired_case : let devs := install_pairs 0 case_links in
  length devs = 48%nat /\ nth_error devs 36 = Some (IslModel.mkIsl 21 18) /\ nth_error devs (w_peer (g_net case_setting) 36) = Some (IslModel.mkIsl 22 18) /\
  nth_error devs (w_peer (g_net case_setting) 37) = Some (IslModel.mkIsl 21 18).
Proof. vm_compute. repeat split. Qed.
