(** * C75: Interests from station to station, over the constellation *)
From Coq Require Import ZArith List Lia Bool Arith Permutation Sorted.
From Verif Require Import Base SatAddrModel SatAddrProofs ConstellationModel ConstellationSpec ConstellationProofs ConstellationProps
  IslModel GeoTagModel GeoTagSpec GeoTagNetProps DeviceModel DeviceSpec DeviceProofs RxModel RxSpec AlohaModel ChannelModel LinkModel LinkSpec LinkProofs
  SystemModel SystemSpec SystemProofs SystemMacs SystemProps DownSpec DownProofs DownProps IslNetSpec IslNetProps
  FaceModel FaceSpec FaceProofs FaceNetSpec FaceDownProps FaceUpProps FaceIslProps RelayModel RelaySpec RelayFaces RelayProofs RelayProps JourneyModel JourneySpec JourneyProofs.
Import ListNotations.
Open Scope Z_scope.
Import SystemProps.

(** ** Counting *)
Lemma times_got : forall b (fns : list (fnote note)), times b (gots fns) = count_occ Z.eq_dec (all_got fns) b.
Proof.
  intros b fns. unfold times, gots, all_got. induction fns as [|[n|t s c] l IH]; [reflexivity|exact IH|]. cbn [flat_map app filter snd count_occ].
  destruct (Z.eqb_spec c b) as [->|Ne]; destruct (Z.eq_dec _ _); try congruence; cbn [length]; rewrite IH; reflexivity.
Qed.
Lemma count_sent : forall b (cs : list (fcall down_other)), count_occ Z.eq_dec (blocks_sent cs) b = times b (down_sent cs).
Proof.
  intros b cs. unfold times, down_sent, blocks_sent. induction cs as [|c l IH]; [reflexivity|]. destruct c as [t i c|t i p|y]; cbn [flat_map app filter snd count_occ]; try exact IH.
  destruct (Z.eqb_spec c b) as [->|Ne]; destruct (Z.eq_dec _ _); try congruence; cbn [length]; rewrite IH; reflexivity.
Qed.
Lemma got_in : forall N (fns : list (fnote N)) t s b, In (t, s, b) (gots fns) <-> In (FGot t s b) fns.
Proof.
  intros N fns t s b. unfold gots. rewrite in_flat_map. split.
  - intros (n & Hn & H). destruct n as [n|t' s' b']; [destruct H|]. destruct H as [[= -> -> ->]|[]]. exact Hn.
  - intros H. exists (FGot t s b). split; [exact H|left; reflexivity].
Qed.
Lemma down_sent_in : forall (cs : list (fcall down_other)) t i b, In (t, i, b) (down_sent cs) <-> In (FSend t i b) cs.
Proof.
  intros cs t i b. unfold down_sent. rewrite in_flat_map. split.
  - intros (c & Hc & H). destruct c as [t' i' b'|? ? ?|?]; try destruct H as [[= -> -> ->]|[]]; try destruct H. exact Hc.
  - intros H. exists (FSend t i b). split; [exact H|left; reflexivity].
Qed.
Lemma came_in : forall ops t n b, In (RIn t n b) ops -> In (t, n, b) (came ops).
Proof. intros ops t n b H. unfold came. apply in_flat_map. exists (RIn t n b). split; [exact H|left; reflexivity]. Qed.

Section Journey.
Context {M : Type}.
Variable m : mission.
Variable rx : mac_rx M.
Variable m0 : M.
Hypothesis Pm : prepared m.
Hypothesis Fit : single rx /\ rx_total rx.

(** Nothing fails, in none of the three networks: whatever can come next, happens. *)
Theorem journey_safe : forall ops r, sensible m ops -> fly_mission m rx m0 ops = Some r ->
  exists st jns, r = Ok (st, jns) /\
    forall o, sensible m [o] -> can_come st o -> exists st' jns', fly_mission m rx m0 (ops ++ [o]) = Some (Ok (st', jns')).
Proof.
  intros ops r Se R. destruct Fit as [Si To]. destruct (run_ok m rx m0 Pm Si To ops r (sensible_fine m ops Se) R) as (st & jns & T & -> & Fl). exists st, jns. split; [reflexivity|].
  intros o So (t & Ht & Rd). pose proof (sensible_fine m [o] So) as F. inversion F as [|? ? Fo _]; subst.
  destruct (step_any m rx m0 Pm Si To _ _ _ _ _ (fn_inv _ _ _ _ _ _ _ Fl) Fo Ht Rd) as (st2 & notes & E & _). exists st2, (jns ++ notes).
  rewrite (fly_app m rx m0 _ _ _ _ R). cbn [j_run]. unfold then_. rewrite E. cbn [obind fst snd]. rewrite app_nil_r. reflexivity.
Qed.

Lemma addr_of : forall a n, satellite_at m a n -> In a (g_addrs (m_set m)) /\ v_addr (m_down m) n = a /\ get_satellite_addr (w_host (m_up m)) (w_con (m_up m)) a = Ok (Some n).
Proof.
  intros a n (k & p & i & Hk & Ha). split; [eapply nth_error_In; exact Ha|]. split; [exact (p_daddr _ Pm _ _ _ Hk Ha)|exact (launched_found m Pm _ _ _ _ _ Hk Ha)].
Qed.
Lemma slot_addr : forall p i n, In (p, i, n) (g_adds (m_set m)) -> satellite_at m (v_addr (m_down m) n) n.
Proof.
  intros p i n H. apply In_nth_error in H. destruct H as [k Hk].
  destruct (p_con _ Pm) as (id & Hid & R). destruct (v_launched _ (p_service _ Pm)) as (id' & c & ids & A1 & A2 & A3 & A4 & A5 & _).
  destruct (satellite_found_at_its_address _ _ _ _ _ _ _ Hid A3 A4 R) as (Le & _).
  destruct (nth_error (g_addrs (m_set m)) k) as [a|] eqn:Ha.
  - rewrite (p_daddr _ Pm _ _ _ Hk Ha : v_addr (m_down m) n = a). exists k, p, i. auto.
  - apply nth_error_None in Ha. assert (k < length (g_adds (m_set m)))%nat by (apply nth_error_Some; congruence). lia.
Qed.

(** What a station gets was sent by a station, while that was pointing at a launched satellite; it came in here while this
    station was pointing at the satellite in the slot of the tag; in between it took at least the time of its hops. *)
Theorem journey_provenance : forall ops st jns t r b a, sensible m ops -> fly_mission m rx m0 ops = Some (Ok (st, jns)) ->
  0 <= a -> (forall t i j u, a <= g_delay (m_set m) t i j + g_tx (m_set m) (g_rate (m_set m) i) u) -> In (t, r, b) (j_got jns) ->
  In r (v_ground (m_down m)) /\
  exists t0 g o1 o2 n0, ops = o1 ++ JSend t0 g b :: o2 /\ satellite_at m (points (w_a0 (m_up m) g) g o1) n0 /\
  exists ta o3 o4 n st3 jns3, ops = o3 ++ JDown :: o4 /\ fly_mission m rx m0 o3 = Some (Ok (st3, jns3)) /\ op_time st3 JDown = Some ta /\
    tagged_to m b n /\ satellite_at m (points (w_a0 (m_up m) r) r o3) n /\
    t0 + Z.of_nat (g_dist (m_set m) n0 b) * a <= ta <= t.
Proof.
  intros ops st jns t r b a Se R Ap Da Hg. destruct Fit as [Si To]. pose proof (sensible_fine m ops Se) as Fo. destruct (run_ok m rx m0 Pm Si To ops _ Fo R) as (st' & jns' & T & Eq & Fl). injection Eq as <- <-.
  pose proof (fn_inv _ _ _ _ _ _ _ Fl) as I. apply got_in in Hg. fold (j_got jns) in Hg.
  destruct (downlink_faces _ _ _ _ (m_sane m Pm) (m_ndn m Pm) (down_fine_good m Pm _ (ji_df _ _ _ _ _ _ _ _ I)) (ji_down _ _ _ _ _ _ _ _ I)) as (fd & fns & Eq & Dn). injection Eq as <- <-.
  destruct (Dn _ _ _ Hg) as (Gr & td & n & Hs & Lt & n1 & ta & f & n2 & En & Ef & Es & Fc & Tt). split; [exact Gr|].
  assert (Hgr : In (td, n, b) (grounded (r_outs jns))) by (rewrite <- (ji_gr _ _ _ _ _ _ _ _ I), app_nil_r; apply down_sent_in; exact Hs).
  pose proof (inv_from_ground m rx m0 Pm Si To _ _ _ _ _ I) as Fg.
  destruct (relay_safe _ _ _ (p_service _ Pm) Fg (ji_isl _ _ _ _ _ _ _ _ I)) as (fi & rns & Eq & _ & Sl). injection Eq as <- <-. specialize (Sl _ _ _ Hgr).
  destruct (relay_takes_time _ _ _ _ a (p_service _ Pm) Fg (ji_isl _ _ _ _ _ _ _ _ I) Ap Da _ _ _ Hgr) as (tu & n0 & Hin & Le).
  apply came_in in Hin. assert (Hu : In (FGot tu n0 b) (u_outs jns)) by (apply got_in; rewrite <- (ji_mid _ _ _ _ _ _ _ _ I), app_nil_r; exact Hin).
  destruct (up_got _ _ _ _ (p_proper _ Pm) (p_slots _ Pm) Si To _ _ (up_fine_good m Pm _ (ji_uf _ _ _ _ _ _ _ _ I)) (ji_up _ _ _ _ _ _ _ _ I)) as (fu & fnu & Eq & Up). injection Eq as <- <-.
  destruct (Up _ _ _ Hu) as (c1 & t0 & g & c2 & Ec & Le0 & Aim). rewrite (fn_u _ _ _ _ _ _ _ Fl) in Ec. destruct (up_part_split _ _ _ _ _ _ Ec) as (o1 & o2 & Eo & Eu).
  exists t0, g, o1, o2, n0. split; [exact Eo|]. split.
  - assert (Fu : Forall (up_fine m) c1). { pose proof (ji_uf _ _ _ _ _ _ _ _ I) as F. rewrite (fn_u _ _ _ _ _ _ _ Fl), Ec in F. apply Forall_app in F. apply F. }
    pose proof (aimed_launched m g c1 _ Fu (p_start _ Pm g)) as La. rewrite <- (aimed_points g o1), Eu. destruct (launched_pair m Pm _ La) as (k & p & i & n' & Hk & Ha).
    rewrite (launched_found m Pm _ _ _ _ _ Hk Ha) in Aim. injection Aim as ->. exists k, p, i. auto.
  - destruct (arrival m rx m0 Pm Si To ops _ _ Fo R _ _ _ _ _ En) as (o3 & o4 & st3 & j3 & E3 & R3 & T3 & P3). exists ta, o3, o4, n, st3, j3.
    split; [exact E3|]. split; [exact R3|]. split; [exact T3|]. split; [exact Sl|]. split; [|lia]. rewrite <- (P3 r), Fc. exact (slot_addr _ _ _ Sl).
Qed.

(** No station gets more than was sent. *)
Theorem journey_once : forall ops st jns r b, sensible m ops -> fly_mission m rx m0 ops = Some (Ok (st, jns)) -> one_copy (m_up m) -> NoDup (v_ground (m_down m)) ->
  (count_occ Z.eq_dec (j_got_at r jns) b <= count_occ Z.eq_dec (map snd (j_sent ops)) b)%nat.
Proof.
  intros ops st jns r b Se R One Ng. destruct Fit as [Si To]. pose proof (sensible_fine m ops Se) as Fo. destruct (run_ok m rx m0 Pm Si To ops _ Fo R) as (st' & jns' & T & Eq & Fl). injection Eq as <- <-.
  pose proof (fn_inv _ _ _ _ _ _ _ Fl) as I. pose proof (inv_from_ground m rx m0 Pm Si To _ _ _ _ _ I) as Fg.
  destruct (downlink_faces_once _ _ _ _ _ (m_sane m Pm) (m_ndn m Pm) (down_fine_good m Pm _ (ji_df _ _ _ _ _ _ _ _ I)) Ng (ji_down _ _ _ _ _ _ _ _ I) r) as [l1 P1].
  apply (Permutation_count_occ Z.eq_dec) with (x := b) in P1. rewrite count_occ_app, count_sent in P1.
  pose proof (ji_gr _ _ _ _ _ _ _ _ I) as E1. rewrite app_nil_r in E1. rewrite E1 in P1.
  destruct (relay_accounts _ _ _ _ b (p_service _ Pm) Fg (ji_isl _ _ _ _ _ _ _ _ I)) as (way & C & _).
  pose proof (ji_mid _ _ _ _ _ _ _ _ I) as E2. rewrite app_nil_r in E2. rewrite E2, times_got in C.
  destruct (up_once _ _ _ _ (p_proper _ Pm) (p_slots _ Pm) Si To One _ _ _ (up_fine_good m Pm _ (ji_uf _ _ _ _ _ _ _ _ I)) (ji_up _ _ _ _ _ _ _ _ I)) as [l2 P2].
  apply (Permutation_count_occ Z.eq_dec) with (x := b) in P2. rewrite count_occ_app, (fn_u _ _ _ _ _ _ _ Fl), up_part_sent in P2. unfold j_got_at. lia.
Qed.

(** Left alone, everything comes to rest. *)
Theorem journey_rests : forall ops st jns, sensible m ops -> fly_mission m rx m0 ops = Some (Ok (st, jns)) ->
  exists ops' st' jns', Forall (fun o => In o [JUp; JIsl; JDown]) ops' /\ fly_mission m rx m0 (ops ++ ops') = Some (Ok (st', jns')) /\ at_rest st'.
Proof.
  intros ops st jns Se R. destruct Fit as [Si To]. pose proof (sensible_fine m ops Se) as Fo. destruct (run_ok m rx m0 Pm Si To ops _ Fo R) as (st' & jns' & T & Eq & Fl). injection Eq as <- <-.
  pose proof (fn_inv _ _ _ _ _ _ _ Fl) as I. destruct (up_some_left m rx m0 Pm Si To _ _ _ _ _ I) as [a A], (isl_some_left m rx m0 Pm Si To _ _ _ _ _ I) as [c C], (down_some_left m rx m0 Pm _ _ _ _ _ I) as [e E].
  eapply (settle m rx m0 Pm Si To); eauto.
Qed.
End Journey.
Print Assumptions journey_safe.
Print Assumptions journey_provenance.
Print Assumptions journey_once.
Print Assumptions journey_rests.

(** The satellites' MAC layers without memory, and Aloha's, are such. *)
Theorem journey_macs : (single none_mac /\ rx_total none_mac) /\ forall below, single (aloha_mac below) /\ rx_total (aloha_mac below).
Proof.
  split; [split; [apply always_single, none_always|apply none_total]|]. intros below. split; [apply aloha_single|apply aloha_total].
Qed.

(** ** Nothing is lost *)
Lemma count_from : forall n b (cs : list (fcall down_other)),
  count_occ Z.eq_dec (blocks_from n cs) b = length (filter (fun x => (snd (fst x) =? n)%nat && (snd x =? b)) (down_sent cs)).
Proof.
  intros n b cs. unfold down_sent, blocks_from. induction cs as [|c l IH]; [reflexivity|]. destruct c as [t i c|t i p|y]; cbn [flat_map app filter fst snd]; try exact IH.
  destruct (i =? n)%nat; cbn [app andb]; [|exact IH]. cbn [count_occ].
  destruct (Z.eqb_spec c b) as [->|Ne]; destruct (Z.eq_dec _ _); try congruence; cbn [length]; rewrite IH; reflexivity.
Qed.

(** Without losses in the channels, at the queues or for collisions, once all is at rest, a station that stays pointed at
    satellite [n] has got exactly the Interests tagged for the slot of [n], each as often as stations sent it. *)
Theorem journey_all : forall m ops st jns r n, prepared m -> sensible m ops -> fly_mission m none_mac tt ops = Some (Ok (st, jns)) -> at_rest st ->
  one_copy (m_up m) -> (forall j q u, w_fits (m_up m) j q u = true) -> (forall t u g i, w_success (m_up m) t u g i = true) ->
  (forall t u i j, g_success (m_set m) t u i j = true) -> (forall i q u, g_fits (m_set m) i q u = true) ->
  (forall j q u, v_fits (m_down m) j q u = true) -> (forall t u, v_success (m_down m) t u r n = true) ->
  NoDup (v_ground (m_down m)) -> In r (v_ground (m_down m)) -> satellite_at m (w_a0 (m_up m) r) n -> (forall t a, ~ In (JTurn t r a) ops) ->
  exists slot, In (slot, n) (g_adds (m_set m)) /\
    Permutation (j_got_at r jns) (filter (fun b => (fst slot =? snd (fst (g_tag (m_set m) b)))%nat && (snd slot =? snd (g_tag (m_set m) b))%nat) (map snd (j_sent ops))).
Proof.
  intros m ops st jns r n Pm Se R (Q1 & Q2 & Q3) One Uf Us Gs Gf Df Ds Ng Hr At Nt. destruct journey_macs as [[Si To] _].
  destruct At as (k & p & i & Hk & Ha). exists (p, i). split; [eapply nth_error_In; exact Hk|]. cbn [fst snd].
  pose proof (sensible_fine m ops Se) as Fo. destruct (run_ok m none_mac tt Pm Si To ops _ Fo R) as (st' & jns' & T & Eq & Fl). injection Eq as <- <-.
  pose proof (fn_inv _ _ _ _ _ _ _ Fl) as I. pose proof (inv_from_ground m none_mac tt Pm Si To _ _ _ _ _ I) as Fg.
  pose proof (ji_gr _ _ _ _ _ _ _ _ I) as E1. rewrite app_nil_r in E1. pose proof (ji_mid _ _ _ _ _ _ _ _ I) as E2. rewrite app_nil_r in E2.
  destruct (relay_safe _ _ _ (p_service _ Pm) Fg (ji_isl _ _ _ _ _ _ _ _ I)) as (fi & rns & Eq & _ & Sl). injection Eq as <- <-.
  assert (Ad : v_addr (m_down m) n = w_a0 (m_up m) r) by exact (p_daddr _ Pm _ _ _ Hk Ha).
  assert (Un : forall p' i' j, In (p', i', j) (g_adds (m_set m)) -> v_addr (m_down m) j = v_addr (m_down m) n -> (p', i', j) = (p, i, n)).
  { intros p' i' j Hj E. apply In_nth_error in Hj. destruct Hj as [k' Hk'].
    destruct (p_con _ Pm) as (id & Hid & Ra). destruct (v_launched _ (p_service _ Pm)) as (id' & c & ids & A1 & A2 & A3 & A4 & A5 & _).
    destruct (satellite_found_at_its_address _ _ _ _ _ _ _ Hid A3 A4 Ra) as (Le & Nd & _).
    destruct (nth_error (g_addrs (m_set m)) k') as [a|] eqn:Ha'.
    - pose proof (p_daddr _ Pm _ _ _ Hk' Ha' : v_addr (m_down m) j = a) as Ej. rewrite E, Ad in Ej. subst a.
      assert (k = k'). { apply (proj1 (NoDup_nth_error _) Nd); [apply nth_error_Some; congruence|congruence]. } subst k'. congruence.
    - apply nth_error_None in Ha'. assert (k' < length (g_adds (m_set m)))%nat by (apply nth_error_Some; congruence). lia. }
  assert (Pd : Permutation (got_at r (d_outs jns)) (blocks_from n (d_calls jns))).
  { eapply (downlink_faces_all _ _ _ _ _ n r (m_sane m Pm) (m_ndn m Pm) (down_fine_good m Pm _ (ji_df _ _ _ _ _ _ _ _ I)) Ng (ji_down _ _ _ _ _ _ _ _ I) Q3 Df Ds Hr).
    - rewrite (p_dstart _ Pm). symmetry. exact Ad.
    - intros t a H. assert (Ht : In (t, r, a) (turns_of (d_calls jns))) by (apply in_flat_map; eexists; split; [exact H|left; reflexivity]).
      rewrite (fn_turns _ _ _ _ _ _ _ Fl) in Ht. apply in_flat_map in Ht. destruct Ht as (o & Ho & Ht). destruct o as [|t' r' a'| | | |]; try destruct Ht. injection H0 as -> -> ->. exact (Nt _ _ Ho). destruct H0.
    - intros t j b H E. apply down_sent_in in H. rewrite E1 in H. apply Sl in H. specialize (Un _ _ _ H E). congruence. }
  apply (Permutation_count_occ Z.eq_dec). intros b. unfold j_got_at. rewrite (proj1 (Permutation_count_occ Z.eq_dec _ _) Pd b), count_from, E1.
  destruct (relay_accounts _ _ _ _ b (p_service _ Pm) Fg (ji_isl _ _ _ _ _ _ _ _ I)) as (way & C & _ & W). destruct (W Q2) as [-> _].
  rewrite (nothing_lost _ _ _ _ (p_service _ Pm) Fg (ji_isl _ _ _ _ _ _ _ _ I) Gs Gf) in C. cbn [count_occ] in C. rewrite E2, times_got in C.
  pose proof (proj1 (Permutation_count_occ Z.eq_dec _ _) (uplink_faces_all _ _ _ _ _ (p_proper _ Pm) One (m_ndn m Pm) (proj1 (up_fine_good m Pm _ (ji_uf _ _ _ _ _ _ _ _ I))) (proj2 (up_fine_good m Pm _ (ji_uf _ _ _ _ _ _ _ _ I)))
    (ji_up _ _ _ _ _ _ _ _ I) Q1 Uf Us) b) as Cu.
  rewrite (fn_u _ _ _ _ _ _ _ Fl), up_part_sent in Cu. rewrite Cu in C.
  set (here := (p =? snd (fst (g_tag (m_set m) b)))%nat && (i =? snd (g_tag (m_set m) b))%nat).
  assert (L : count_occ Z.eq_dec (filter (fun b => (p =? snd (fst (g_tag (m_set m) b)))%nat && (i =? snd (g_tag (m_set m) b))%nat) (map snd (j_sent ops))) b = if here then count_occ Z.eq_dec (map snd (j_sent ops)) b else 0%nat).
  { clear - here. induction (map snd (j_sent ops)) as [|c l IH]; [destruct here; reflexivity|]. cbn [filter]. destruct (Z.eq_dec c b) as [->|Ne].
    - fold here. destruct here; cbn [count_occ]; destruct (Z.eq_dec b b); try contradiction; [f_equal; exact IH|exact IH].
    - cbn [count_occ]. destruct (Z.eq_dec c b); try contradiction. destruct ((p =? snd (fst (g_tag (m_set m) c)))%nat && (i =? snd (g_tag (m_set m) c))%nat); [cbn [count_occ]; destruct (Z.eq_dec c b); [contradiction|]|]; exact IH. }
  rewrite L. assert (G : length (filter (fun x => (snd (fst x) =? n)%nat && (snd x =? b)) (grounded (r_outs jns))) = if here then times b (grounded (r_outs jns)) else 0%nat).
  { unfold times. assert (Hh : forall x, In x (grounded (r_outs jns)) -> (snd (fst x) =? n)%nat && (snd x =? b) = here && (snd x =? b)).
    { intros [[t j] b'] Hx. cbn [fst snd]. destruct (Z.eqb_spec b' b) as [->|]; [|rewrite !andb_false_r; reflexivity]. rewrite !andb_true_r. apply Sl in Hx. unfold here.
      destruct (Nat.eqb_spec j n) as [->|Ne].
      - specialize (Un _ _ _ Hx eq_refl). injection Un as <- <-. rewrite !Nat.eqb_refl. reflexivity.
      - symmetry. apply andb_false_iff. destruct (Nat.eqb_spec p (snd (fst (g_tag (m_set m) b)))) as [Ep|]; [|left; reflexivity]. destruct (Nat.eqb_spec i (snd (g_tag (m_set m) b))) as [Ei|]; [|right; reflexivity].
        exfalso. apply Ne. rewrite <- Ep, <- Ei in Hx. 
        destruct (p_con _ Pm) as (id & Hid & Ra). destruct (v_launched _ (p_service _ Pm)) as (id' & c & ids & A1 & A2 & A3 & A4 & A5 & _).
        destruct (run_adds_admissible _ _ _ _ _ (new_wf id (g_planes (m_set m)) (g_size (m_set m))) Ra) as [[Nd _] _]. 
        apply In_nth_error in Hx. destruct Hx as [k' Hk'].
        assert (k = k').
        { apply (proj1 (NoDup_nth_error _) Nd); [rewrite map_length; apply nth_error_Some; congruence|]. rewrite !nth_error_map, Hk, Hk'. reflexivity. }
        subst k'. congruence. }
    clear - Hh. induction (grounded (r_outs jns)) as [|x l IH]; [destruct here; reflexivity|]. cbn [filter]. rewrite (Hh x (or_introl eq_refl)).
    specialize (IH (fun y Hy => Hh y (or_intror Hy))). destruct here; cbn [andb]; [destruct (snd x =? b); cbn [length]; rewrite IH; reflexivity|exact IH]. }
  rewrite G. destruct here; lia.
Qed.
Print Assumptions journey_all.

(** ** A case: three planes of four, three stations *)
Definition trip_set : setting :=
  mkSetting LittleEndian 3 4 ex_adds (match case_launch with Ok (_, a) => a | _ => [] end) case_links (ex_faces case_links)
    case_tag (fun t b _ f => ex_ctx (fst (fst (case_tag b)), Z.of_nat (snd (fst (case_tag b))), Z.of_nat (snd (case_tag b))) f)
    (fun _ _ => 5) (fun _ => 1) (fun _ _ _ => 3) (fun _ _ _ _ => true) (fun _ _ _ => true) 30000.
Definition trip_addr (n : nat) : sat_address := sat_make LittleEndian 7 (Z.of_nat (n / 10 mod 10)) (Z.of_nat (n mod 10)).
Definition trip_start (g : nat) : sat_address := trip_addr (if (g =? 1)%nat then 22%nat else 0%nat).
Definition trip : mission := mkMission trip_set
  (SystemProps.mkNet LittleEndian (match case_launch with Ok (c, _) => c | _ => con_new 7 3 4 end) (fun _ _ => 10) (fun _ => 1) (fun _ g _ => 20 + Z.of_nat g) (fun _ p _ _ => p) (fun _ _ _ _ => true)
    (fun g => Z.of_nat g) (fun _ _ _ => true) TxNone trip_start (fun _ => 0))
  (mkDownlink LittleEndian (fun _ _ => 4) (fun _ => 1) (fun _ g _ => 30 + Z.of_nat g) (fun _ p _ _ => p) (fun _ _ _ _ => true) trip_addr [0%nat; 1%nat; 2%nat] (fun _ => 0) (fun _ _ _ => true) trip_start).

(** Station 0 sends Interest 1, tagged for (2,2), and 21, tagged for (1,3); station 1 sends 11, tagged for (0,0); while they
    are on their way down, station 2 is turned from the satellite in (0,0) to the one in (2,2).  Nobody listens to (1,3). *)
Definition trip_sends := [JSend 0 0 1; JSend 0 1 11; JSend 1 0 21] ++ repeat JUp 8 ++ repeat JIsl 6 ++ [JUp] ++ repeat JIsl 18.
Definition trip_ops := trip_sends ++ repeat JDown 3 ++ [JTurn 70 2 (trip_addr 22)] ++ repeat JDown 12.

Lemma trip_service : in_service trip_set.
Proof.
  constructor; cbn [trip_set g_host g_planes g_size g_adds g_addrs g_links g_table g_tag g_request g_tx g_delay g_ndn].
  - exact (v_launched _ case_in_service).
  - intros n f _. apply faces_table.
  - intros t b n f. cbn [ex_ctx rq_tag rq_ingress rq_sup rq_scope]. repeat split. discriminate.
  - intros; lia.
  - intros; lia.
  - unfold is_u16. lia.
Qed.
Lemma trip_real : forall n, wf_sat LittleEndian (trip_addr n).
Proof.
  intros n. exists 7, (Z.of_nat (n / 10 mod 10)), (Z.of_nat (n mod 10)). pose proof (Nat.mod_upper_bound (n / 10) 10). pose proof (Nat.mod_upper_bound n 10). unfold is_u16. repeat split; lia.
Qed.
Lemma trip_prepared : prepared trip.
Proof.
  constructor; cbn [trip m_set m_up m_down w_host w_con w_a0 v_host v_addr v_a0].
  - exact trip_service.
  - split; [intros; cbn; lia|]. split; [intros t g n; change (0 <= 20 + Z.of_nat g); lia|]. split; [exact Logic.I|]. intros; cbn; lia.
  - exact Logic.I.
  - reflexivity.
  - exists 7. split; [unfold is_u16; lia|]. vm_compute. reflexivity.
  - intros g. unfold trip_start. destruct (g =? 1)%nat; vm_compute; repeat (first [left; reflexivity|right]).
  - intros; cbn; lia.
  - intros t g n. change (0 <= 30 + Z.of_nat g). lia.
  - reflexivity.
  - intros k e a Hk Ha. do 12 (destruct k as [|k]; [vm_compute in Hk, Ha; injection Hk as <-; injection Ha as <-; vm_compute; reflexivity|]). clear Ha. vm_compute in Hk. destruct k; discriminate Hk.
  - exact trip_real.
  - reflexivity.
Qed.
Lemma trip_sensible : sensible trip trip_ops.
Proof.
  split.
  - intros t g b H. assert (E : b = 1 \/ b = 11 \/ b = 21).
    { unfold trip_ops, trip_sends in H. rewrite !in_app_iff in H. repeat destruct H as [H|H]; try (apply repeat_spec in H); try discriminate H; try (injection H as <- <- <-; auto); destruct H. }
    destruct E as [->|[->| ->]]; cbn; lia.
  - intros t g a H. assert (E : a = trip_addr 22).
    { unfold trip_ops, trip_sends in H. rewrite !in_app_iff in H. repeat destruct H as [H|H]; try (apply repeat_spec in H); try discriminate H; try (injection H as <- <- <-; auto); destruct H. }
    subst a. vm_compute. repeat (first [left; reflexivity|right]).
Qed.
Example trip_case :
  prepared trip /\ sensible trip trip_ops /\
  match fly_mission trip none_mac tt trip_ops with
  | Some (Ok (st, jns)) => at_rest st /\ j_got jns = [(89, 1%nat, 1); (89, 0%nat, 11); (90, 2%nat, 1)]
  | _ => False
  end.
Proof.
  split; [exact trip_prepared|]. split; [exact trip_sensible|]. vm_compute. repeat split.
Qed.
