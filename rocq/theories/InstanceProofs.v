From Coq Require Import ZArith QArith List Lia Bool Arith.
From Verif Require Import Base SatAddrModel SatAddrProofs ConstellationModel LaunchModel IslModel IslSpec IslProofs IslProps GeoTagModel GeoTagSpec
  GeoTagProofs GeoTagProps GeoTagRoute GeoTagNetProps ConstellationSpec ConstellationProofs SetupModel SetupSpec SetupProofs SetupRun SetupProps InstanceModel InstanceSpec.
Import ListNotations.
Open Scope Z_scope.

Lemma to_next : forall n x, (x < n)%nat -> Z.of_nat ((x + 1) mod n) = (Z.of_nat x + 1) mod Z.of_nat n.
Proof. intros. rewrite Nat2Z.inj_mod, Nat2Z.inj_add. reflexivity. Qed.
Lemma to_prev : forall n x, (x < n)%nat -> Z.of_nat ((n + x - 1) mod n) = (Z.of_nat x - 1) mod Z.of_nat n.
Proof. intros. rewrite Nat2Z.inj_mod, Nat2Z.inj_sub, Nat2Z.inj_add by lia. apply prev_mod'. lia. Qed.
Lemma to_next_nb : forall n x, (x < n)%nat -> (2 <= n)%nat -> ring_neighbour n x ((x + 1) mod n).
Proof. intros. apply ring_neighbour_spec. rewrite mod_succ by auto. destruct (Nat.eqb_spec (x + 1) n); lia. Qed.
Lemma to_prev_nb : forall n x, (x < n)%nat -> (2 <= n)%nat -> ring_neighbour n x ((n + x - 1) mod n).
Proof.
  intros. apply ring_neighbour_spec. assert (((n + x - 1) mod n)%nat = (if Nat.eqb x 0 then n - 1 else x - 1)%nat) as ->.
  { destruct (Nat.eqb_spec x 0).
    - subst. rewrite Nat.mod_small; lia.
    - replace (n + x - 1)%nat with (x - 1 + 1 * n)%nat by lia. rewrite Nat.mod_add by lia. apply Nat.mod_small. lia. }
  destruct (Nat.eqb_spec x 0); lia.
Qed.

(** * Hop by hop on any network that is a torus around the satellites concerned *)
Section Grid.
Variable nw : network.
Variable h : host.
Variables P S : nat.
Variable node : slot -> nat.
Hypothesis HP : Z.of_nat P <= 65536.
Hypothesis HS : Z.of_nat S <= 65536.
Hypothesis sizes : nw_planes nw = Z.of_nat P /\ nw_size nw = Z.of_nat S.
Hypothesis Addr : forall p i, (p < P)%nat -> (i < S)%nat ->
  exists a, nw_addr nw (node (p, i)) = Some a /\ get_plane h a = Z.of_nat p /\ get_index h a = Z.of_nat i.
Hypothesis Ends : forall k p i m, (p < P)%nat -> (i < S)%nat -> ends (nw_links nw) k (node (p, i)) m ->
  exists x, m = node x /\ torus_neighbour P S (p, i) x.
Hypothesis Link : forall x y, torus_neighbour P S x y -> exists k, ends (nw_links nw) k (node x) (node y).
Variables (nh : nat -> list face) (ctx : nat -> face -> request) (cid : Z) (q j : nat).
Hypothesis Hq : (q < P)%nat.
Hypothesis Hj : (j < S)%nat.
Hypothesis Hnh : forall p i f, (p < P)%nat -> (i < S)%nat ->
  (In f (nh (node (p, i))) <-> f = GroundFace \/ exists k m, f = IslFace k /\ ends (nw_links nw) k (node (p, i)) m).
Hypothesis Hctx : forall n f, rq_tag (ctx n f) = Some (cid, Z.of_nat q, Z.of_nat j) /\
  rq_ingress (ctx n f) = f /\ rq_sup (ctx n f) <> SUPPRESS /\ forall g, rq_scope (ctx n f) g = false.

Let handle (n : nat) (f : face) := after_receive_interest nw h n (nh n) (ctx n f).
Let dist (x : slot) : Z := griddist (Z.of_nat P) (Z.of_nat S) (zslot x) (zslot (q, j)).

Lemma g_inside : forall x y, torus_neighbour P S x y -> (fst x < P)%nat /\ (snd x < S)%nat /\ (fst y < P)%nat /\ (snd y < S)%nat /\ x <> y.
Proof.
  intros [a b] [c d] [(E & L & R)|(E & L & R)]; cbn [fst snd] in *; apply ring_neighbour_spec in R; subst; repeat split; try lia; intros X; injection X; lia.
Qed.

Lemma g_sym : forall x y, torus_neighbour P S x y -> torus_neighbour P S y x.
Proof.
  intros [a b] [c d] [(E & L & R1 & R2 & R3 & R4)|(E & L & R1 & R2 & R3 & R4)]; cbn [fst snd] in *; subst; [left|right]; cbn [fst snd]; unfold ring_neighbour; repeat split; auto; tauto.
Qed.

(** Addresses tell the satellites apart. *)
Lemma g_inj : forall p i p' i', (p < P)%nat -> (i < S)%nat -> (p' < P)%nat -> (i' < S)%nat -> node (p, i) = node (p', i') -> (p, i) = (p', i').
Proof.
  intros p i p' i' H1 H2 H3 H4 E. destruct (Addr p i H1 H2) as (a & A1 & A2 & A3). destruct (Addr p' i' H3 H4) as (a' & B1 & B2 & B3).
  rewrite E, B1 in A1. injection A1 as ->. f_equal; lia.
Qed.

Lemma g_remote : forall k p i m, (p < P)%nat -> (i < S)%nat -> ends (nw_links nw) k (node (p, i)) m ->
  remote_node nw (node (p, i)) (IslFace k) = Ok m.
Proof.
  intros k p i m Hp Hi E. unfold remote_node. destruct E as [E|E]; rewrite E.
  - rewrite Nat.eqb_refl. reflexivity.
  - destruct (Nat.eqb_spec m (node (p, i))) as [->|]; reflexivity.
Qed.

Lemma g_isl : forall k p i m, (p < P)%nat -> (i < S)%nat -> ends (nw_links nw) k (node (p, i)) m ->
  exists p' i' a, m = node (p', i') /\ torus_neighbour P S (p, i) (p', i') /\ sat_address_of nw (node (p, i)) (IslFace k) = Ok a /\
    get_plane h a = Z.of_nat p' /\ get_index h a = Z.of_nat i'.
Proof.
  intros k p i m Hp Hi E. destruct (Ends k p i m Hp Hi E) as ([p' i'] & -> & T). destruct (g_inside _ _ T) as (_ & _ & H1 & H2 & _). cbn [fst snd] in *.
  destruct (Addr p' i' H1 H2) as (a & A1 & A2 & A3). exists p', i', a. repeat split; auto. unfold sat_address_of. rewrite (g_remote k p i _ Hp Hi E). cbn [rbind]. rewrite A1. reflexivity.
Qed.

Lemma g_ground : forall p i, (p < P)%nat -> (i < S)%nat -> exists a, sat_address_of nw (node (p, i)) GroundFace = Ok a /\ nw_addr nw (node (p, i)) = Some a /\
  get_plane h a = Z.of_nat p /\ get_index h a = Z.of_nat i.
Proof.
  intros p i Hp Hi. destruct (Addr p i Hp Hi) as (a & A1 & A2 & A3). exists a. unfold sat_address_of, remote_node. cbn [rbind]. rewrite A1. auto.
Qed.

(** Where a direction leads, as a neighbour. *)
Lemma g_towards : forall p i t, (p < P)%nat -> (i < S)%nat ->
  (along_planes t /\ (2 <= P)%nat) \/ (along_plane t /\ (2 <= S)%nat) ->
  exists y, torus_neighbour P S (p, i) y /\ zslot y = towards (Z.of_nat P) (Z.of_nat S) t (zslot (p, i)) /\
  (forall y', torus_neighbour P S (p, i) y' -> lies (Z.of_nat P) (Z.of_nat S) t (zslot (p, i)) (zslot y') -> y' = y) /\
  ~ lies (Z.of_nat P) (Z.of_nat S) t (zslot (p, i)) (zslot (p, i)).
Proof.
  intros p i t Hp Hi C.
  assert (Uniq : forall y, torus_neighbour P S (p, i) y -> zslot y = towards (Z.of_nat P) (Z.of_nat S) t (zslot (p, i)) -> fst y <> p \/ (fst y = p /\ along_plane t) ->
    (along_planes t -> fst y <> p) ->
    forall y', torus_neighbour P S (p, i) y' -> lies (Z.of_nat P) (Z.of_nat S) t (zslot (p, i)) (zslot y') -> y' = y).
  { intros [a b] T Ey D D' [a' b'] T' L. cbn [fst] in *.
    assert (Full : zslot (a', b') = towards (Z.of_nat P) (Z.of_nat S) t (zslot (p, i)) -> (a', b') = (a, b)).
    { intros E. rewrite <- Ey in E. unfold zslot in E. cbn in E. injection E as E1 E2. f_equal; lia. }
    destruct t; cbn [lies] in L; try (apply Full; exact L).
    - specialize (D' (or_introl eq_refl)). rewrite <- Ey in L. unfold zslot in L. cbn in L. assert (a' = a) by lia. subst a'. f_equal.
      destruct T as [(E1 & _)|(E1 & _)], T' as [(E2 & _)|(E2 & _)]; cbn [fst snd] in *; congruence.
    - specialize (D' (or_intror eq_refl)). rewrite <- Ey in L. unfold zslot in L. cbn in L. assert (a' = a) by lia. subst a'. f_equal.
      destruct T as [(E1 & _)|(E1 & _)], T' as [(E2 & _)|(E2 & _)]; cbn [fst snd] in *; congruence. }
  assert (Go : forall y, torus_neighbour P S (p, i) y -> zslot y = towards (Z.of_nat P) (Z.of_nat S) t (zslot (p, i)) -> (along_planes t /\ fst y <> p) \/ (along_plane t /\ snd y <> i /\ fst y = p) ->
    exists y, torus_neighbour P S (p, i) y /\ zslot y = towards (Z.of_nat P) (Z.of_nat S) t (zslot (p, i)) /\
    (forall y', torus_neighbour P S (p, i) y' -> lies (Z.of_nat P) (Z.of_nat S) t (zslot (p, i)) (zslot y') -> y' = y) /\
    ~ lies (Z.of_nat P) (Z.of_nat S) t (zslot (p, i)) (zslot (p, i))).
  { intros y T Ey D. exists y. split; [exact T|]. split; [exact Ey|]. split.
    - apply Uniq; try assumption; [tauto|]. intros A. destruct D as [[_ D]|[D _]]; [exact D|]. destruct A as [->| ->], D as [D|D]; discriminate.
    - intros L. destruct y as [a b]. cbn [fst snd] in *. destruct D as [[[->| ->] D]|[[->| ->] (D & D')]]; cbn [lies] in L; rewrite <- Ey in L; unfold zslot in L; cbn in L; try injection L; lia. }
  destruct C as [[[->| ->] G]|[[->| ->] G]].
  - set (a := ((p + 1) mod P)%nat). assert (R : ring_neighbour P p a) by (apply to_next_nb; lia).
    pose proof (proj1 (ring_neighbour_spec _ _ _) R) as Rs.
    apply (Go (a, i)); [right; cbn; auto| |left; split; [left; reflexivity|cbn; lia]]. unfold zslot. cbn [fst snd towards]. unfold a. rewrite to_next by lia. reflexivity.
  - set (a := ((P + p - 1) mod P)%nat). assert (R : ring_neighbour P p a) by (apply to_prev_nb; lia).
    pose proof (proj1 (ring_neighbour_spec _ _ _) R) as Rs.
    apply (Go (a, i)); [right; cbn; auto| |left; split; [right; reflexivity|cbn; lia]]. unfold zslot. cbn [fst snd towards]. unfold a. rewrite to_prev by lia. reflexivity.
  - set (a := ((i + 1) mod S)%nat). assert (R : ring_neighbour S i a) by (apply to_next_nb; lia).
    pose proof (proj1 (ring_neighbour_spec _ _ _) R) as Rs.
    apply (Go (p, a)); [left; cbn; auto| |right; split; [left; reflexivity|cbn; lia]]. unfold zslot. cbn [fst snd towards]. unfold a. rewrite to_next by lia. reflexivity.
  - set (a := ((S + i - 1) mod S)%nat). assert (R : ring_neighbour S i a) by (apply to_prev_nb; lia).
    pose proof (proj1 (ring_neighbour_spec _ _ _) R) as Rs.
    apply (Go (p, a)); [left; cbn; auto| |right; split; [right; reflexivity|cbn; lia]]. unfold zslot. cbn [fst snd towards]. unfold a. rewrite to_prev by lia. reflexivity.
Qed.

Definition g_came (p i : nat) (f : face) : Prop :=
  f = GroundFace \/ exists k p' i', f = IslFace k /\ (p' < P)%nat /\ (i' < S)%nat /\ ends (nw_links nw) k (node (p, i)) (node (p', i')) /\ dist (p', i') <> dist (p, i) - 1.

Lemma g_react : forall p i f, (p < P)%nat -> (i < S)%nat -> g_came p i f ->
  let t := get_target (Z.of_nat P) (Z.of_nat S) (Z.of_nat q) (Z.of_nat j) (Z.of_nat p) (Z.of_nat i) in
  let good g := may_use (ctx (node (p, i)) f) g /\ exists a, sat_address_of nw (node (p, i)) g = Ok a /\
                 lies (Z.of_nat P) (Z.of_nat S) t (zslot (p, i)) (get_plane h a, get_index h a) in
  (exists g, In g (nh (node (p, i))) /\ good g) ->
  exists g, In g (nh (node (p, i))) /\ good g /\ handle (node (p, i)) f = Ok [SendInterest g].
Proof.
  intros p i f Hp Hi C t good (g0 & I0 & G0). destruct (g_ground p i Hp Hi) as (a & Ga & A1 & A2 & A3). destruct sizes as [Z1 Z2]. destruct (Hctx (node (p, i)) f) as (T & In_ & Su & Sc).
  assert (Dev : has_net_device (rq_ingress (ctx (node (p, i)) f)) = true) by (rewrite In_; destruct C as [->|(k & _ & _ & -> & _)]; reflexivity).
  assert (Kn : all_known nw (node (p, i)) (ctx (node (p, i)) f) (nh (node (p, i)))).
  { intros g Hg _. apply Hnh in Hg; [|assumption..]. destruct Hg as [->|(k & m & -> & E)]; [eauto|]. destruct (g_isl k p i m Hp Hi E) as (p' & i' & b & _ & _ & B & _). eauto. }
  pose proof (steered_reaction nw h (node (p, i)) a (nh (node (p, i))) (ctx (node (p, i)) f) cid (Z.of_nat q) (Z.of_nat j) ltac:(lia) ltac:(lia) A1 Su T Dev Kn) as St.
  cbv zeta in St. cbn [fst snd] in St. rewrite A2, A3, Z1, Z2 in St. destruct St as (acts & Ea & Na & Fa).
  destruct (one_reaction _ _ _ _ _ _ Ea) as [(-> & [X|(_ & X & _)])|[(_ & g & -> & Ig & _)|(_ & ->)]].
  - contradiction.
  - exfalso. apply X. split; [rewrite T; discriminate|exact Dev].
  - destruct (proj1 (Fa g) eq_refl) as (pre & post & Es & Gg & _). exists g. split; [exact Ig|]. split; [exact Gg|exact Ea].
  - exfalso. rewrite In_ in Na. exact (proj1 Na eq_refl g0 I0 G0).
Qed.

Lemma g_here : forall f, g_came q j f -> handle (node (q, j)) f = Ok [SendInterest GroundFace].
Proof.
  intros f C. assert (GP : 0 < Z.of_nat P <= 65536) by lia. assert (GS : 0 < Z.of_nat S <= 65536) by lia.
  destruct (direction_is_shortest (Z.of_nat P) (Z.of_nat S) (zslot (q, j)) (zslot (q, j)) GP GS ltac:(split; cbn; lia) ltac:(split; cbn; lia)) as (Hg & _). cbn [fst snd zslot] in Hg.
  pose proof (proj2 Hg eq_refl) as Et. destruct (g_ground q j Hq Hj) as (a & Ga & A1 & A2 & A3). destruct (Hctx (node (q, j)) f) as (T & In_ & Su & Sc).
  destruct (g_react q j f Hq Hj C) as (g & Ig & (_ & b & Eb & L) & E).
  - exists GroundFace. split; [apply Hnh; auto|]. split; [split; [auto|apply Sc]|]. exists a. split; [exact Ga|]. rewrite Et, A2, A3. reflexivity.
  - rewrite E. apply Hnh in Ig; [|assumption..]. destruct Ig as [->|(k & m & -> & En)]; [reflexivity|]. exfalso.
    destruct (g_isl k q j m Hq Hj En) as (p' & i' & c & _ & Tn & Ec & C1 & C2). rewrite Eb in Ec. injection Ec as ->. rewrite Et, C1, C2 in L. cbn in L.
    destruct (g_inside _ _ Tn) as (_ & _ & _ & _ & N). apply N. unfold zslot in L. cbn in L. injection L as L1 L2. f_equal; lia.
Qed.

Lemma g_next : forall p i f, (p < P)%nat -> (i < S)%nat -> (p, i) <> (q, j) -> g_came p i f ->
  exists k p' i', (p' < P)%nat /\ (i' < S)%nat /\ dist (p', i') = dist (p, i) - 1 /\
    handle (node (p, i)) f = Ok [SendInterest (IslFace k)] /\ f <> IslFace k /\ ends (nw_links nw) k (node (p, i)) (node (p', i')).
Proof.
  intros p i f Hp Hi N C. assert (GP : 0 < Z.of_nat P <= 65536) by lia. assert (GS : 0 < Z.of_nat S <= 65536) by lia.
  destruct (direction_is_shortest (Z.of_nat P) (Z.of_nat S) (zslot (p, i)) (zslot (q, j)) GP GS ltac:(split; cbn; lia) ltac:(split; cbn; lia)) as (_ & HA & HB & HD & _).
  cbn [fst snd zslot] in HA, HB, HD.
  assert (Nz : (Z.of_nat p, Z.of_nat i) <> (Z.of_nat q, Z.of_nat j)) by (intros E; injection E as E1 E2; apply N; f_equal; lia). specialize (HD Nz).
  pose proof (g_react p i f Hp Hi C) as Re. cbv zeta in Re.
  set (t := get_target (Z.of_nat P) (Z.of_nat S) (Z.of_nat q) (Z.of_nat j) (Z.of_nat p) (Z.of_nat i)) in *.
  assert (Ct : (along_planes t /\ (2 <= P)%nat) \/ (along_plane t /\ (2 <= S)%nat)).
  { destruct (Nat.eq_dec p q) as [->|Np].
    - right. split; [apply HB; [reflexivity|]|]; assert (i <> j) by congruence; lia.
    - left. split; [apply HA; lia|lia]. }
  destruct (g_towards p i t Hp Hi Ct) as ([p1 i1] & Tn & Ey & Un & Nl). destruct (g_inside _ _ Tn) as (_ & _ & L1 & L2 & _). cbn [fst snd] in L1, L2.
  destruct (Hctx (node (p, i)) f) as (T & In_ & Su & Sc).
  assert (D1 : dist (p1, i1) = dist (p, i) - 1) by (unfold dist; rewrite Ey; exact HD).
  destruct Re as (g & Ig & (Mg & b & Eb & Lg) & E).
  - destruct (Link _ _ Tn) as (k & Ek). exists (IslFace k). split; [apply Hnh; eauto|]. split.
    + split; [|apply Sc]. left. rewrite In_. intros Ef. destruct C as [->|(k' & p' & i' & -> & Lp & Li & Ek' & Dd)]; [discriminate Ef|]. injection Ef as <-.
      pose proof (g_remote k p i _ Hp Hi Ek) as R1. pose proof (g_remote k p i _ Hp Hi Ek') as R2. rewrite R1 in R2. injection R2 as R2.
      apply g_inj in R2; try assumption. injection R2 as <- <-. contradiction.
    + destruct (g_isl k p i _ Hp Hi Ek) as (p' & i' & b & Em & Tn' & Eb & B1 & B2). exists b. split; [exact Eb|]. rewrite B1, B2.
      destruct (g_inside _ _ Tn') as (_ & _ & L3 & L4 & _). cbn [fst snd] in L3, L4. apply g_inj in Em; try assumption. injection Em as <- <-.
      change (Z.of_nat p1, Z.of_nat i1) with (zslot (p1, i1)). rewrite Ey. destruct t; reflexivity.
  - apply Hnh in Ig; [|assumption..]. destruct Ig as [->|(k & m & -> & En)].
    + exfalso. destruct (g_ground p i Hp Hi) as (a & Ga & A1 & A2 & A3). rewrite Ga in Eb. injection Eb as <-. rewrite A2, A3 in Lg. exact (Nl Lg).
    + destruct (g_isl k p i m Hp Hi En) as (p' & i' & c & -> & Tn' & Ec & C1 & C2). rewrite Eb in Ec. injection Ec as ->. rewrite C1, C2 in Lg.
      pose proof (Un _ Tn' Lg) as Eq. injection Eq as -> ->. exists k, p1, i1. split; [exact L1|]. split; [exact L2|]. split; [exact D1|]. split; [exact E|]. split; [|exact En].
      intros ->. destruct Mg as [[Mg|Mg] _]; [rewrite In_ in Mg; contradiction|discriminate Mg].
Qed.

Lemma g_dist_nonneg : forall x, 0 <= dist x.
Proof.
  intros x. unfold dist, griddist.
  pose proof (ringdist_nonneg (Z.of_nat P) (fst (zslot x)) (fst (zslot (q, j))) ltac:(lia)).
  pose proof (ringdist_nonneg (Z.of_nat S) (snd (zslot x)) (snd (zslot (q, j))) ltac:(lia)). lia.
Qed.

Lemma g_route : forall m p i f, (p < P)%nat -> (i < S)%nat -> g_came p i f -> dist (p, i) = Z.of_nat m ->
  exists path, length path = m /\ route (nw_links nw) handle (node (p, i)) f path (node (q, j)).
Proof.
  assert (Dec : forall p i : nat, {(p, i) = (q, j)} + {(p, i) <> (q, j)}) by (intros; repeat decide equality).
  induction m as [|m IH]; intros p i f Hp Hi C Dm.
  - destruct (Dec p i) as [E|N].
    + injection E as -> ->. exists []. split; [reflexivity|]. constructor. apply g_here. exact C.
    + exfalso. destruct (g_next p i f Hp Hi N C) as (_ & a & b & Ha & Hb & Dd & _). pose proof (g_dist_nonneg (a, b)). lia.
  - assert (N : (p, i) <> (q, j)).
    { intros E. injection E as -> ->. unfold dist, griddist in Dm. cbn [fst snd zslot] in Dm. rewrite !ringdist_spec in Dm by lia. rewrite !Z.sub_diag in Dm. lia. }
    destruct (g_next p i f Hp Hi N C) as (k & a & b & Ha & Hb & Dd & K1 & K2 & K3).
    destruct (IH a b (IslFace k) Ha Hb) as (path & L & Rt).
    + right. exists k, p, i. repeat split; auto; [|lia]. destruct K3; [right|left]; auto.
    + lia.
    + exists (node (a, b) :: path). split; [cbn; lia|]. econstructor; eauto.
Qed.

Lemma g_delivers : forall p i, (p < P)%nat -> (i < S)%nat -> exists path,
  Z.of_nat (length path) = ringdist (Z.of_nat P) (Z.of_nat p) (Z.of_nat q) + ringdist (Z.of_nat S) (Z.of_nat i) (Z.of_nat j) /\
  route (nw_links nw) handle (node (p, i)) GroundFace path (node (q, j)).
Proof.
  intros p i Hp Hi. destruct (g_route (Z.to_nat (dist (p, i))) p i GroundFace Hp Hi (or_introl eq_refl)) as (path & L & R).
  - rewrite Z2Nat.id by apply g_dist_nonneg. reflexivity.
  - exists path. split; [|exact R]. rewrite L, Z2Nat.id by apply g_dist_nonneg. reflexivity.
Qed.
End Grid.

(** * The ends of channels *)
Open Scope nat_scope.
Lemma map_seq : forall (f : nat -> nat * nat) net s, (forall k x, nth_error net k = Some x -> f (s + k) = x) -> map f (seq s (length net)) = net.
Proof.
  intros f. induction net as [|x net IH]; intros s H; [reflexivity|]. cbn [length seq map]. f_equal.
  - rewrite <- (Nat.add_0_r s). apply H. reflexivity.
  - apply IH. intros k y E. replace (Datatypes.S s + k) with (s + Datatypes.S k) by lia. apply H. exact E.
Qed.

Lemma link_ends_pairs : forall net, link_ends (install_pairs 0 net) = net.
Proof.
  intros net. unfold link_ends. rewrite install_pairs_length, Nat.mul_comm, Nat.div_mul by lia. apply map_seq. intros k [a b] H.
  rewrite (chan_devices net 0 k a b H). reflexivity.
Qed.

(** * First places *)
Lemma first_place : forall B (f : B -> bool) l k, hd_error (places f 0 l) = Some k <->
  (exists x, nth_error l k = Some x /\ f x = true) /\ forall i x, i < k -> nth_error l i = Some x -> f x = false.
Proof.
  intros B f.
  assert (G : forall l from k, hd_error (places f from l) = Some k <->
    exists d, k = from + d /\ (exists x, nth_error l d = Some x /\ f x = true) /\ forall i x, i < d -> nth_error l i = Some x -> f x = false).
  { induction l as [|y l IH]; intros from k; cbn [places].
    - split; [discriminate|]. intros (d & _ & (x & H & _) & _). destruct d; discriminate H.
    - destruct (f y) eqn:Fy; cbn [app hd_error].
      + split.
        * intros E. injection E as <-. exists 0. split; [lia|]. split; [exists y; auto|]. intros i x L. lia.
        * intros (d & -> & _ & N). destruct d as [|d]; [rewrite Nat.add_0_r; reflexivity|]. specialize (N 0 y ltac:(lia) eq_refl). congruence.
      + rewrite IH. split.
        * intros (d & -> & (x & H & F) & N). exists (Datatypes.S d). split; [lia|]. split; [exists x; auto|]. intros [|i] z L Z; [injection Z as <-; exact Fy|]. apply (N i); [lia|exact Z].
        * intros (d & -> & (x & H & F) & N). destruct d as [|d]; [cbn in H; injection H as <-; congruence|]. exists d. split; [lia|]. split; [exists x; auto|].
          intros i z L Z. apply (N (Datatypes.S i)); [lia|exact Z]. }
  intros l k. rewrite G. split.
  - intros (d & E & H). cbn in E. subst d. exact H.
  - intros H. exists k. split; [reflexivity|exact H].
Qed.

(** * The scenario *)
Section World.
Variable debug : bool.
Variable ho : host.
Variable plans : nat -> plan.
Hypothesis plans_ok : proper plans.
Variable b : before.
Variable first : Z.
Variable t0 : nat.
Variable l : list sop.
Hypothesis l_holds : holds 0 l.
Variable w : world Q.
Hypothesis w_ok : setup rational debug ho (start plans b first t0) l = Ok w.

Let P_ok : forall h, 0 < pl_P (plans h) /\ 0 < pl_S (plans h).
Proof. intros h. destruct (plans_ok h) as (H1 & H2 & _). auto. Qed.
Let id_ok : forall h, (0 < pl_id (plans h) < 65536)%Z.
Proof. intros h. apply (plans_ok h). Qed.

Let cs := calls 0 t0 l.
Let ms := marks (b_pos b) [] cs.

Lemma i_inv : exists nets, Forall2 (net_of plans b) (asked [] 0 t0 l) nets /\ fits plans b cs /\
  inv ho plans b first cs (told l []) (last_type t0 l) (install_pairs 0 (concat nets)) w.
Proof. exact (script_inv debug ho plans plans_ok b first t0 l l_holds w w_ok). Qed.

Lemma i_grid : forall h, con_planes (h_con (sw_helpers w h)) = pl_P (plans h) /\ con_plane_size (h_con (sw_helpers w h)) = pl_S (plans h).
Proof.
  intros h. destruct i_inv as (nets & _ & _ & I). destruct (i_help _ _ _ _ _ _ _ _ _ I h) as [(addrs & R) _].
  destruct (run_adds_wf _ _ _ _ _ (new_wf _ _ _) R) as (_ & _ & E1 & E2 & _). rewrite E1, E2. split; reflexivity.
Qed.

(** When there is no device to ask. *)
Lemma i_asserts : forall nodes, (strategy_sizes w nodes = Assert <-> forall x, In x cs -> S (cl_node x) <> nodes) /\ strategy_sizes w nodes <> Abort.
Proof.
  intros nodes. destruct i_inv as (nets & _ & _ & I). unfold strategy_sizes. destruct nodes as [|n]; [split; [split; [discriminate|reflexivity]|discriminate]|].
  pose proof (i_first _ _ _ _ _ _ _ _ _ I n) as F. change (mk (b_pos b) cs) with ms in F.
  assert (No : (forall x, In x cs -> S (cl_node x) <> S n) <-> hd_error (places (on n) 0 ms) = None).
  { split.
    - intros H. destruct (hd_error (places (on n) 0 ms)) as [k|] eqn:Eh; [|reflexivity]. apply first_place in Eh. destruct Eh as ((x & Hx & On) & _). exfalso.
      pose proof (mk_nth b cs k x Hx) as Y. unfold on in On. apply Nat.eqb_eq in On. apply (H (snd x)); [exact (nth_error_In _ _ Y)|]. rewrite On. reflexivity.
    - intros E x Hx En. injection En as En. apply In_nth_error in Hx. destruct Hx as (i & Hi).
      assert (L : i < length ms) by (unfold ms; rewrite marks_length; apply nth_error_Some; congruence). apply nth_error_Some in L. destruct (nth_error ms i) as [y|] eqn:Ey; [|congruence]. clear L.
      pose proof (mk_nth b cs i y Ey) as Y. rewrite Hi in Y. injection Y as ->.
      assert (K : forall (f : bool * call -> bool) r from, (exists j z, nth_error r j = Some z /\ f z = true) -> places f from r <> []).
      { clear. intros f r. induction r as [|a r IH]; intros from (j & z & Hj & Hf); [destruct j; discriminate Hj|]. cbn [places]. destruct j as [|j].
        - cbn in Hj. injection Hj as ->. rewrite Hf. discriminate.
        - destruct (f a); [discriminate|]. apply IH. eauto. }
      assert (Y : places (on n) 0 ms <> []) by (apply K; exists i, y; split; [exact Ey|unfold on; apply Nat.eqb_eq; exact En]). destruct (places (on n) 0 ms); [apply Y; reflexivity|discriminate E]. }
  rewrite No. destruct (sn_devs (sw_nodes w n)) as [|[k|k] dl]; cbn [hd_error] in F.
  - destruct (hd_error (places (on n) 0 ms)); [discriminate F|]. split; [tauto|discriminate].
  - destruct (hd_error (places (on n) 0 ms)); [|discriminate F]. destruct (nth_error (sw_devs w) k) as [[a1 [x|x] [c|]]|]; try (split; [split; discriminate|discriminate]).
    destruct (nth_error (sw_chans w) c) as [[[h|] g]|]; split; try (split; discriminate); discriminate.
  - destruct (hd_error (places (on n) 0 ms)); discriminate F.
Qed.

Lemma i_serves : forall nodes P S, strategy_sizes w nodes = Ok (P, S) <->
  exists h, last_serves b t0 l nodes h /\ P = Z.of_nat (pl_P (plans h)) /\ S = Z.of_nat (pl_S (plans h)).
Proof.
  intros nodes P S. destruct i_inv as (nets & _ & _ & I). unfold strategy_sizes, last_serves, station_first. fold cs. fold ms.
  destruct nodes as [|n]; [split; [discriminate|]; intros (h & (n & c & E & _) & _); discriminate E|].
  pose proof (i_first _ _ _ _ _ _ _ _ _ I n) as F. change (mk (b_pos b) cs) with ms in F.
  assert (Snd : forall i x, nth_error ms i = Some x -> nth_error cs i = Some (snd x)) by (intros i x; apply (mk_nth b cs i x)).
  assert (Same : forall k cl, hd_error (places (on n) 0 ms) = Some k -> nth_error ms k = Some (false, cl) ->
    forall c, cl_chan cl = Some c ->
    (exists k cl, nth_error ms k = Some (false, cl) /\ cl_node cl = n /\ cl_chan cl = Some c /\ forall i x, i < k -> nth_error cs i = Some x -> cl_node x <> n)).
  { intros k cl E Hk c Ec. apply first_place in E. destruct E as ((x & Hx & On) & Bf). rewrite Hk in Hx. injection Hx as <-. exists k, cl. split; [exact Hk|].
    split; [apply Nat.eqb_eq in On; exact On|]. split; [exact Ec|]. intros i x L Hi. destruct (nth_error ms i) as [y|] eqn:Ey.
    - specialize (Bf i y L Ey). pose proof (Snd i y Ey) as E. rewrite Hi in E. injection E as ->. unfold on in Bf. apply Nat.eqb_neq in Bf. exact Bf.
    - apply nth_error_None in Ey. unfold ms in Ey. rewrite marks_length in Ey. assert (i < length cs) by (apply nth_error_Some; congruence). lia. }
  assert (Conv : forall k cl, nth_error ms k = Some (false, cl) -> cl_node cl = n -> (forall i x, i < k -> nth_error cs i = Some x -> cl_node x <> n) ->
    hd_error (places (on n) 0 ms) = Some k).
  { intros k cl Hk En Bf. apply first_place. split; [exists (false, cl); split; [exact Hk|]; unfold on; cbn; apply Nat.eqb_eq; exact En|].
    intros i x L Hi. unfold on. apply Nat.eqb_neq. apply (Bf i _ L). apply Snd. exact Hi. }
  destruct (sn_devs (sw_nodes w n)) as [|[k|k] dl].
  - split; [discriminate|]. intros (h & (n' & c & E & (k & cl & Hk & En & _ & Bf) & _) & _). injection E as <-. rewrite (Conv k cl Hk En Bf) in F. discriminate F.
  - destruct (hd_error (places (on n) 0 ms)) as [k'|] eqn:Eh; [|discriminate F]. injection F as ->.
    assert (Hm : exists x, nth_error ms k' = Some x) by (apply first_place in Eh; destruct Eh as ((x & Hx & _) & _); eauto). destruct Hm as [[m cl] Hm].
    rewrite (i_devs _ _ _ _ _ _ _ _ _ I _ _ Hm). unfold device_of. cbn [fst snd]. destruct m.
    + cbn zeta. split; [discriminate|]. intros (h & (n' & c & E & (k & cl' & Hk & En & _ & Bf) & _) & _). injection E as <-. pose proof (Conv k cl' Hk En Bf) as Z. injection Z as <-. congruence.
    + destruct (cl_chan cl) as [c|] eqn:Ec.
      * rewrite (i_chan _ _ _ _ _ _ _ _ _ I c). destruct (nth_error (told l []) c) as [[h|]|] eqn:Et; cbn [option_map].
        -- destruct (i_grid h) as [-> ->]. split.
           ++ intros E. injection E as <- <-. exists h. split; [|auto]. exists n, c. split; [reflexivity|]. split; [|exact Et]. exact (Same k' cl eq_refl Hm c Ec).
           ++ intros (h' & (n' & c' & E & (k & cl' & Hk & En & Ec' & Bf) & Et') & -> & ->). injection E as <-. pose proof (Conv k cl' Hk En Bf) as Z. injection Z as <-. rewrite Hm in Hk. injection Hk as <-.
              rewrite Ec in Ec'. injection Ec' as <-. rewrite Et in Et'. injection Et' as <-. reflexivity.
        -- split; [discriminate|]. intros (h' & (n' & c' & E & (k & cl' & Hk & En & Ec' & Bf) & Et') & _). injection E as <-. pose proof (Conv k cl' Hk En Bf) as Z. injection Z as <-. rewrite Hm in Hk. injection Hk as <-. congruence.
        -- split; [discriminate|]. intros (h' & (n' & c' & E & (k & cl' & Hk & En & Ec' & Bf) & Et') & _). injection E as <-. pose proof (Conv k cl' Hk En Bf) as Z. injection Z as <-. rewrite Hm in Hk. injection Hk as <-. congruence.
      * split; [discriminate|]. intros (h' & (n' & c' & E & (k & cl' & Hk & En & Ec' & Bf) & Et') & _). injection E as <-. pose proof (Conv k cl' Hk En Bf) as Z. injection Z as <-. rewrite Hm in Hk. injection Hk as <-. congruence.
  - destruct (hd_error (places (on n) 0 ms)); discriminate F.
Qed.

(** ** Addresses *)
Lemma i_sats : forall h j n, nth_error (sats_of b h cs) j = Some n ->
  exists k cl, nth_error ms k = Some (true, cl) /\ cl_node cl = n /\ cl_helper cl = h /\ rank (launch_of h) k ms = j.
Proof.
  intros h j n H. rewrite (sats_nodes plans P_ok id_ok) in H. destruct (nth_error (launched_by b h cs) j) as [k|] eqn:E.
  2:{ apply nth_error_None in E. assert (j < length (map (node_of cs) (launched_by b h cs))) by (apply nth_error_Some; congruence). rewrite map_length in *. lia. }
  rewrite (map_nth_error _ _ _ E) in H. injection H as H.
  pose proof (nth_error_In _ _ E) as K. apply launched_in in K. destruct K as (cl & Hk & Eh). change (mk (b_pos b) cs) with ms in Hk. exists k, cl. split; [exact Hk|].
  unfold node_of in H. rewrite (mk_nth b cs k _ Hk) in H. cbn [snd] in H. split; [exact H|]. split; [exact Eh|].
  assert (R : nth_error (launched_by b h cs) (rank (launch_of h) k ms) = Some k).
  { apply (places_rank _ (launch_of h) ms 0 k (true, cl) Hk). unfold launch_of. cbn. apply Nat.eqb_eq. exact Eh. }
  apply (proj1 (NoDup_nth_error (launched_by b h cs)) (places_NoDup _ _ _ _)); [apply nth_error_Some; congruence|congruence].
Qed.

Lemma i_address : forall h j n, nth_error (sats_of b h cs) j = Some n ->
  first_address w n = Some (sat_make ho (pl_id (plans h)) (Z.of_nat (j / pl_S (plans h))) (Z.of_nat (j mod pl_S (plans h)))).
Proof.
  intros h j n H. destruct (i_sats h j n H) as (k & cl & Hk & En & Eh & Er). destruct i_inv as (nets & _ & _ & I). unfold first_address.
  pose proof (i_first _ _ _ _ _ _ _ _ _ I n) as F. change (mk (b_pos b) cs) with ms in F.
  assert (Fp : hd_error (places (on n) 0 ms) = Some k).
  { apply first_place. split; [exists (true, cl); split; [exact Hk|]; unfold on; cbn; apply Nat.eqb_eq; exact En|].
    intros i x L Hi. unfold on. apply Nat.eqb_neq. intros Ex. destruct (mk_launch plans P_ok id_ok b cs k cl Hk) as [_ Cn].
    assert (X : called (cl_node cl) (firstn k cs) = true); [|congruence]. apply called_in. exists (snd x). split; [|congruence]. apply (firstn_before plans P_ok id_ok) with (i := i); [apply (mk_nth b cs i x Hi)|exact L]. }
  rewrite Fp in F. cbn in F. destruct (sn_devs (sw_nodes w n)) as [|d dl]; [discriminate F|]. cbn in F. injection F as ->.
  rewrite (i_devs _ _ _ _ _ _ _ _ _ I _ _ Hk). change (mk (b_pos b) cs) with ms. unfold device_of. cbn [fst snd]. rewrite Eh, Er. reflexivity.
Qed.

Lemma i_same : forall h h' n, In n (sats_of b h cs) -> In n (sats_of b h' cs) -> h = h'.
Proof.
  intros h h' n H H'. apply In_nth_error in H, H'. destruct H as [j H], H' as [j' H']. apply i_sats in H, H'.
  destruct H as (k & cl & Hk & En & Eh & _), H' as (k' & cl' & Hk' & En' & Eh' & _).
  assert (k = k') by (apply (launch_once plans P_ok id_ok b cs k cl k' cl' Hk Hk'); congruence). subst k'. congruence.
Qed.

Lemma i_once : forall h j j' n, nth_error (sats_of b h cs) j = Some n -> nth_error (sats_of b h cs) j' = Some n -> j = j'.
Proof.
  intros h j j' n H H'. apply i_sats in H, H'. destruct H as (k & cl & Hk & En & Eh & Er), H' as (k' & cl' & Hk' & En' & Eh' & Er').
  assert (k = k') by (apply (launch_once plans P_ok id_ok b cs k cl k' cl' Hk Hk'); congruence). congruence.
Qed.

(** ** Links *)
Lemma asked_prefix : forall r cs0 chans ty a, In a (asked cs0 chans ty r) -> exists r', cs0 ++ calls chans ty r = fst (fst a) ++ r'.
Proof.
  induction r as [|o r IH]; intros cs0 chans ty a H; [destruct H|].
  assert (Go : forall chans' ty' x, calls chans ty (o :: r) = x ++ calls chans' ty' r -> In a (asked (cs0 ++ x) chans' ty' r) -> exists r', cs0 ++ calls chans ty (o :: r) = fst (fst a) ++ r').
  { intros chans' ty' x E H'. apply IH in H'. destruct H' as (r' & H'). exists r'. rewrite E, app_assoc. exact H'. }
  destruct o as [|t|[n|] c h|ns c h|ns h|ns h]; cbn [asked] in H.
  - eapply Go; [|exact H]. reflexivity.
  - eapply Go; [|exact H]. reflexivity.
  - eapply Go; [|exact H]. reflexivity.
  - eapply Go; [|exact H]. reflexivity.
  - eapply Go; [|exact H]. cbn [calls]. rewrite app_nil_r. reflexivity.
  - eapply Go; [|exact H]. cbn [calls]. rewrite app_nil_r. reflexivity.
  - destruct H as [<-|H]; [exists (calls chans ty (SIsl ns h :: r)); reflexivity|]. apply (Go chans ty []); [reflexivity|]. rewrite app_nil_r. exact H.
Qed.

Lemma i_full : forall a, In a (asked [] 0 t0 l) -> sats_of b (snd a) (fst (fst a)) = sats_of b (snd a) cs /\
  length (sats_of b (snd a) cs) = pl_P (plans (snd a)) * pl_S (plans (snd a)).
Proof.
  intros a H. destruct (asked_prefix _ _ _ _ _ H) as (r & E). cbn [app] in E. fold cs in E.
  destruct (proj1 (script_builds debug ho plans plans_ok b first t0 l l_holds) (ex_intro _ w w_ok)) as (_ & F & Lk). fold cs in F.
  rewrite Forall_forall in Lk. destruct (Lk a H) as (L & _). pose proof (f_room _ _ _ F (snd a)) as Room.
  assert (Ap : exists more, sats_of b (snd a) cs = sats_of b (snd a) (fst (fst a)) ++ more).
  { unfold sats_of. rewrite E, marks_app, filter_app, map_app. eauto. }
  destruct Ap as [more Ap]. rewrite Ap in *. rewrite app_length in *. destruct more; [rewrite app_nil_r; cbn; split; [reflexivity|lia]|cbn in Room; lia].
Qed.

Lemma torus_dec : forall P S x y, torus_neighbour P S x y \/ ~ torus_neighbour P S x y.
Proof.
  intros P S [p i] [p' i'].
  assert (R : forall n u v, ring_neighbour n u v \/ ~ ring_neighbour n u v).
  { intros n u v. unfold ring_neighbour. destruct (lt_dec u n), (lt_dec v n), (Nat.eq_dec u v), (Nat.eq_dec v ((u + 1) mod n)), (Nat.eq_dec u ((v + 1) mod n)); tauto. }
  unfold torus_neighbour. cbn [fst snd]. destruct (R S i i'), (R P p p'), (Nat.eq_dec p p'), (Nat.eq_dec i i'), (lt_dec p P), (lt_dec i S); tauto.
Qed.

Lemma joins_in : forall net u v, joins net u v <> 0 <-> In (u, v) net \/ In (v, u) net.
Proof.
  intros net u v. unfold joins. split.
  - intros H. destruct (filter _ net) as [|[c d] r] eqn:E; [contradiction|].
    assert (X : In (c, d) (filter (fun l0 : nat * nat => (fst l0 =? u) && (snd l0 =? v) || (fst l0 =? v) && (snd l0 =? u)) net)) by (rewrite E; left; reflexivity).
    apply filter_In in X. destruct X as [X Y]. cbn [fst snd] in Y. apply orb_prop in Y.
    destruct Y as [Y|Y]; apply andb_prop in Y; destruct Y as [Y1 Y2]; apply Nat.eqb_eq in Y1, Y2; subst; auto.
  - intros H E. apply length_zero_iff_nil in E.
    assert (X : exists e, In e (filter (fun l0 : nat * nat => (fst l0 =? u) && (snd l0 =? v) || (fst l0 =? v) && (snd l0 =? u)) net)).
    { destruct H as [H|H]; eexists; apply filter_In; (split; [exact H|]); cbn [fst snd]; rewrite !Nat.eqb_refl; [reflexivity|apply orb_true_r]. }
    destruct X as [e X]. rewrite E in X. destruct X.
Qed.

Lemma in_combined : forall (B C : Type) (R : B -> C -> Prop) xs ys, Forall2 R xs ys -> (forall y, In y ys -> exists x, In x xs /\ R x y) /\ (forall x, In x xs -> exists y, In y ys /\ R x y).
Proof.
  intros B C R xs ys F. induction F as [|x y xs ys H F [I1 I2]]; [split; intros ? []|]. split.
  - intros z [<-|Z]; [exists x; cbn; auto|]. destruct (I1 z Z) as (x' & X & Y). exists x'. cbn. auto.
  - intros z [<-|Z]; [exists y; cbn; auto|]. destruct (I2 z Z) as (x' & X & Y). exists x'. cbn. auto.
Qed.

Section One.
Variable h : nat.
Hypothesis h_linked : linked t0 l h.
Notation P := (pl_P (plans h)).
Notation S := (pl_S (plans h)).
Definition i_node (x : slot) : nat := nth (fst x * S + snd x) (sats_of b h cs) 0.

Lemma i_size : length (sats_of b h cs) = P * S.
Proof. destruct h_linked as (cs0 & ns & H). exact (proj2 (i_full _ H)). Qed.

Lemma i_at : forall p i, p < P -> i < S -> nth_error (sats_of b h cs) (p * S + i) = Some (i_node (p, i)).
Proof. intros p i Hp Hi. unfold i_node. cbn [fst snd]. apply nth_error_nth'. rewrite i_size. nia. Qed.

Lemma i_slot : forall p i, p < P -> i < S -> (p * S + i) / S = p /\ (p * S + i) mod S = i.
Proof.
  intros p i Hp Hi. split.
  - rewrite Nat.add_comm, Nat.div_add by lia. rewrite Nat.div_small by lia. reflexivity.
  - rewrite Nat.add_comm, Nat.mod_add by lia. apply Nat.mod_small. lia.
Qed.

Lemma i_within : forall n, In n (sats_of b h cs) -> exists p i, p < P /\ i < S /\ n = i_node (p, i).
Proof.
  intros n H. apply In_nth_error in H. destruct H as [j H]. assert (L : j < P * S) by (rewrite <- i_size; apply nth_error_Some; congruence).
  assert (0 < S) by nia. exists (j / S), (j mod S). split; [apply Nat.div_lt_upper_bound; lia|]. split; [apply Nat.mod_upper_bound; lia|].
  unfold i_node. cbn [fst snd]. rewrite Nat.mul_comm, <- Nat.div_mod by lia. symmetry. apply nth_error_nth. exact H.
Qed.

Lemma i_named : forall p i, p < P -> i < S -> exists a, first_address w (i_node (p, i)) = Some a /\ get_plane ho a = Z.of_nat p /\ get_index ho a = Z.of_nat i.
Proof.
  intros p i Hp Hi. rewrite (i_address h _ _ (i_at p i Hp Hi)). destruct (i_slot p i Hp Hi) as [-> ->]. eexists. split; [reflexivity|].
  destruct (plans_ok h) as (_ & _ & H1 & H2 & H3). destruct (getters_make ho (pl_id (plans h)) (Z.of_nat p) (Z.of_nat i)) as (_ & G1 & G2); unfold is_u16; try lia.
Qed.

Variable nets : list (list (nat * nat)).
Hypothesis nets_ok : Forall2 (net_of plans b) (asked [] 0 t0 l) nets.

Lemma i_net : forall net, In net nets -> exists h', is_grid (pl_P (plans h')) (pl_S (plans h')) (sats_of b h' cs) net.
Proof.
  intros net H. destruct (in_combined _ _ _ _ _ nets_ok) as [I1 _]. destruct (I1 net H) as (a & Ha & G). exists (snd a). unfold net_of in G. rewrite (proj1 (i_full _ Ha)) in G. exact G.
Qed.

Lemma i_ends : forall k p i m, p < P -> i < S -> ends (concat nets) k (i_node (p, i)) m -> exists x, m = i_node x /\ torus_neighbour P S (p, i) x.
Proof.
  intros k p i m Hp Hi E.
  assert (X : exists net, In net nets /\ (In (i_node (p, i), m) net \/ In (m, i_node (p, i)) net)).
  { destruct E as [E|E]; apply nth_error_In in E; apply in_concat in E; destruct E as (net & H1 & H2); exists net; auto. }
  destruct X as (net & Hn & X). destruct (i_net net Hn) as (h' & G1 & G2).
  assert (Y : In (i_node (p, i)) (sats_of b h' cs) /\ In m (sats_of b h' cs)) by (destruct X as [X|X]; apply G2 in X; tauto). destruct Y as [Y1 Y2].
  assert (h' = h) by (apply (i_same h' h _ Y1); apply (nth_error_In _ _ (i_at p i Hp Hi))). subst h'.
  destruct (i_within m Y2) as (p' & i' & Hp' & Hi' & ->). exists (p', i'). split; [reflexivity|].
  destruct (G1 (p * S + i) (p' * S + i') _ _ (i_at p i Hp Hi) (i_at p' i' Hp' Hi')) as [_ Z].
  destruct (i_slot p i Hp Hi) as [E1 E2]. destruct (i_slot p' i' Hp' Hi') as [E3 E4]. rewrite E1, E2, E3, E4 in Z.
  destruct (torus_dec P S (p, i) (p', i')) as [T|N]; [exact T|]. exfalso. exact (proj2 (joins_in _ _ _) X (Z N)).
Qed.

Lemma i_links : forall x y, torus_neighbour P S x y -> exists k, ends (concat nets) k (i_node x) (i_node y).
Proof.
  intros [p i] [p' i'] T.
  assert (B : p < P /\ i < S /\ p' < P /\ i' < S) by (destruct T as [(E & L & R)|(E & L & R)]; cbn [fst snd] in *; apply ring_neighbour_spec in R; lia).
  destruct B as (Hp & Hi & Hp' & Hi'). destruct h_linked as (cs0 & ns & H). destruct (in_combined _ _ _ _ _ nets_ok) as [_ I2]. destruct (I2 _ H) as (net & Hn & G).
  unfold net_of in G. rewrite (proj1 (i_full _ H)) in G. cbn [fst snd] in G. destruct G as [G _].
  destruct (G (p * S + i) (p' * S + i') _ _ (i_at p i Hp Hi) (i_at p' i' Hp' Hi')) as [Z _].
  destruct (i_slot p i Hp Hi) as [E1 E2]. destruct (i_slot p' i' Hp' Hi') as [E3 E4]. rewrite E1, E2, E3, E4 in Z. specialize (Z T).
  destruct (proj1 (joins_in net (i_node (p, i)) (i_node (p', i')))) as [X|X]; [lia| |].
  - destruct (In_nth_error (concat nets) (i_node (p, i), i_node (p', i'))) as [k K]; [apply in_concat; eauto|]. exists k. left. exact K.
  - destruct (In_nth_error (concat nets) (i_node (p', i'), i_node (p, i))) as [k K]; [apply in_concat; eauto|]. exists k. right. exact K.
Qed.
End One.
End World.
