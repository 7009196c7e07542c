(** Theorems about the channels. *)
From Coq Require Import ZArith List Lia Bool Arith Permutation.
From Verif Require Import Base SatAddrModel SatAddrProofs ConstellationModel ConstellationSpec ConstellationProofs ConstellationProps ChannelModel.
Import ListNotations.
Open Scope Z_scope.

(** * C46: uplink *)

(** The receptions and drop notices of a list of outcomes. *)
Definition drops (l : list outcome) : nat := length (filter (fun o => match o with Dropped _ => true | _ => false end) l).
Definition sat_receptions (l : list outcome) : list outcome := filter (fun o => match o with AtSat _ _ _ _ _ _ _ => true | _ => false end) l.

(** What should happen to a frame for plane [p], place [i] of the constellation recorded by [adds]. *)
Definition uplink_expected (delay : nat -> nat -> Z) (loss : Z -> nat -> nat -> Z) (visible : nat -> nat -> bool)
  (ground_addr : nat -> Z) (adds : list (nat * nat * nat)) (g p i : nat) (u rate proto power : Z) : outcome :=
  match added_at adds p i with
  | None => Dropped u
  | Some s => if visible g s then AtSat (delay g s) s u rate (SrcGround (ground_addr g)) proto (loss power g s) else Dropped u
  end.

(** Claimed for every launched constellation and every place in it. *)
Definition uplink_one_outcome : Prop := forall h tx_time delay loss visible ground_addr id P S adds c addrs ground g p i u rate proto power,
  is_u16 id -> (Z.of_nat P <= 65536) -> (Z.of_nat S <= 65536) ->
  run_adds h (con_new id P S) adds = Ok (c, addrs) -> (p < P)%nat -> (i < S)%nat ->
  transmit2sat h tx_time delay loss (Some visible) ground_addr (mkGS (Some c) ground) u rate g
      (sat_make h id (Z.of_nat p) (Z.of_nat i)) proto power
  = Ok (tx_time rate u, [uplink_expected delay loss visible ground_addr adds g p i u rate proto power]).

Lemma lookup_place : forall h id P S adds c addrs p i,
  is_u16 id -> (Z.of_nat P <= 65536) -> (Z.of_nat S <= 65536) ->
  run_adds h (con_new id P S) adds = Ok (c, addrs) -> (p < P)%nat -> (i < S)%nat ->
  get_satellite_addr h c (sat_make h id (Z.of_nat p) (Z.of_nat i)) = Ok (added_at adds p i).
Proof.
  intros h id P S adds c addrs p i Hid HP HS R Hp Hi.
  destruct (run_adds_wf _ _ _ _ _ (new_wf id P S) R) as (W & Ei & EP & ES & En). cbn in *.
  unfold get_satellite_addr. destruct (getters_make h id (Z.of_nat p) (Z.of_nat i)) as (-> & -> & ->);
    try (unfold is_u16 in *; lia).
  rewrite Ei, Z.eqb_refl. cbn [assert_ rbind]. rewrite !Nat2Z.id.
  apply (lookup_bounds_partial h id P S adds c addrs p i R). lia.
Qed.

(** With no satellite at the address the drop is noticed, and then the null device is used. *)
Theorem uplink_missing_satellite_refuted : ~ uplink_one_outcome.
Proof.
  intros H. destruct (run_adds LittleEndian (con_new 1 2 2) [(1, 0, 7)]%nat) as [[c l]| | |] eqn:R; try discriminate R.
  specialize (H LittleEndian (fun r u => 8 * u / r) (fun _ _ => 1) (fun p _ _ => p) (fun _ _ => true) (fun _ => 1) 1 2%nat 2%nat
    _ _ _ [] 0%nat 0%nat 0%nat 100 1 7 30 ltac:(unfold is_u16; lia) ltac:(lia) ltac:(lia) R ltac:(lia) ltac:(lia)).
  vm_compute in R. injection R as <- <-. vm_compute in H. discriminate.
Qed.
Print Assumptions uplink_missing_satellite_refuted.

(** Everything that can happen: without a constellation one drop; to a satellite in orbit exactly one outcome, the
    expected one; to an empty place undefined behaviour; to another constellation an assertion.  Missing: the drop for
    an empty place. *)
Theorem uplink_one_outcome_partial : forall h tx_time delay loss success ground_addr ground g u rate proto power,
  (forall dst, transmit2sat h tx_time delay loss success ground_addr (mkGS None ground) u rate g dst proto power
     = Ok (tx_time rate u, [Dropped u])) /\
  (forall id P S adds c addrs p i,
    is_u16 id -> (Z.of_nat P <= 65536) -> (Z.of_nat S <= 65536) ->
    run_adds h (con_new id P S) adds = Ok (c, addrs) -> (p < P)%nat -> (i < S)%nat ->
    let r := transmit2sat h tx_time delay loss success ground_addr (mkGS (Some c) ground) u rate g
      (sat_make h id (Z.of_nat p) (Z.of_nat i)) proto power in
    let visible := match success with Some f => f | None => fun _ _ => true end in
    match added_at adds p i with
    | Some s => r = Ok (tx_time rate u, [uplink_expected delay loss visible ground_addr adds g p i u rate proto power])
    | None => r = UB
    end) /\
  (forall id P S adds c addrs id' p i,
    is_u16 id -> is_u16 id' -> is_u16 p -> is_u16 i ->
    run_adds h (con_new id P S) adds = Ok (c, addrs) -> id' <> id ->
    transmit2sat h tx_time delay loss success ground_addr (mkGS (Some c) ground) u rate g (sat_make h id' p i) proto power = Assert).
Proof.
  intros h tx_time delay loss success ground_addr ground g u rate proto power. split; [reflexivity|]. split.
  - intros id P S adds c addrs p i Hid HP HS R Hp Hi. cbv zeta.
    unfold transmit2sat, uplink_expected. cbn [gs_con]. rewrite (lookup_place h id P S adds c addrs p i) by assumption.
    cbn [rbind]. destruct (added_at adds p i) as [s|]; [|reflexivity].
    unfold gs_succeeds. destruct success as [f|]; [destruct (f g s)|]; reflexivity.
  - intros id P S adds c addrs id' p i Hid Hid' Hp Hi R Ne.
    destruct (run_adds_wf _ _ _ _ _ (new_wf id P S) R) as (W & Ei & EP & ES & En). cbn in *.
    unfold transmit2sat. cbn [gs_con]. unfold get_satellite_addr.
    destruct (getters_make h id' p i) as (-> & _); auto. rewrite Ei.
    destruct (Z.eqb_spec id' id); [contradiction|]. reflexivity.
Qed.
Print Assumptions uplink_one_outcome_partial.

Example uplink_case :
  match run_adds LittleEndian (con_new 1 2 2) [(1, 0, 7); (0, 1, 8)]%nat with
  | Ok (c, _) =>
      let t d := transmit2sat LittleEndian (fun r u => 8000 * u / r) (fun g s => 100 * Z.of_nat (g + s)) (fun p _ _ => p - 20)
                   (Some (fun _ s => (s =? 7)%nat)) (fun g => 1000 + Z.of_nat g) (mkGS (Some c) [3; 4]%nat) 50 10 3%nat d 7 30 in
      t (sat_make LittleEndian 1 1 0) = Ok (40000, [AtSat 1000 7%nat 50 10 (SrcGround 1003) 7 10]) /\
      t (sat_make LittleEndian 1 0 1) = Ok (40000, [Dropped 50])
  | _ => False
  end.
Proof. vm_compute. split; reflexivity. Qed.

(** * C47: downlink *)

(** Receptions scheduled at one station. *)
Definition receptions_at (g : nat) (l : list outcome) : list outcome :=
  filter (fun o => match o with AtGround _ g' _ _ _ _ _ => (g' =? g)%nat | _ => false end) l.

Fixpoint attach_ground (ch : gs_channel) (l : list (nat * bool)) : result gs_channel :=
  match l with
  | [] => Ok ch
  | (g, m) :: l' => do ch1 <- add_ground ch g m ; attach_ground ch1 l'
  end.

Lemma attach_ground_list : forall l ch ch', attach_ground ch l = Ok ch' ->
  gs_ground ch' = gs_ground ch ++ map fst l /\ gs_con ch' = gs_con ch.
Proof.
  induction l as [|[g m] l IH]; intros ch ch' H; cbn in H.
  - injection H as <-. rewrite app_nil_r. auto.
  - unfold add_ground in H. destruct m; cbn in H; [|discriminate]. apply IH in H. destruct H as [-> ->].
    cbn. rewrite <- app_assoc. auto.
Qed.

(** For every set of stations attached: each station that can hear gets exactly one reception, after its own delay and
    with its own power; the others get none, and there is one drop notice for each of them; nothing else happens. *)
Theorem downlink_per_station : forall delay loss success sat_addr l ch u rate src proto power,
  attach_ground gs_new l = Ok ch -> NoDup (map fst l) ->
  let out := transmit2ground delay loss success sat_addr ch u rate src proto power in
  let hears g := match success with Some f => f g src | None => true end in
  (forall g, In g (map fst l) -> hears g = true ->
     receptions_at g out = [AtGround (delay g src) g u rate (SrcSat (sat_addr src)) proto (loss power g src)]) /\
  (forall g, (~ In g (map fst l) \/ hears g = false) -> receptions_at g out = []) /\
  drops out = length (filter (fun g => negb (hears g)) (map fst l)) /\
  length out = length l /\
  Forall (fun o => match o with AtSat _ _ _ _ _ _ _ => False | Dropped v => v = u | AtGround _ _ v _ _ _ _ => v = u end) out.
Proof.
  intros delay loss success sat_addr l ch u rate src proto power A Nd. cbv zeta.
  destruct (attach_ground_list l gs_new ch A) as [E _]. cbn in E. unfold transmit2ground. rewrite E.
  rewrite <- (map_length fst l). clear A E ch. set (gs := map fst l) in *. clearbody gs. clear l.
  pose (hears := fun g => gs_succeeds success g src).
  set (out := to_each delay loss success sat_addr gs u rate src proto power).
  change ((forall g, In g gs -> hears g = true ->
     receptions_at g out = [AtGround (delay g src) g u rate (SrcSat (sat_addr src)) proto (loss power g src)]) /\
  (forall g, (~ In g gs \/ hears g = false) -> receptions_at g out = []) /\
  drops out = length (filter (fun g => negb (hears g)) gs) /\
  length out = length gs /\
  Forall (fun o => match o with AtSat _ _ _ _ _ _ _ => False | Dropped v => v = u | AtGround _ _ v _ _ _ _ => v = u end) out).
  subst out. assert (H : forall g, gs_succeeds success g src = hears g) by reflexivity. clearbody hears.
  induction gs as [|g gs IH]; cbn [to_each].
  - repeat split; try contradiction; constructor.
  - inversion Nd as [|? ? Ng Nd']; subst. destruct (IH Nd') as (I1 & I2 & I3 & I4 & I5). rewrite H.
    split; [|split; [|split; [|split]]].
    + intros g' [->|Hg] Hh.
      * rewrite Hh. unfold receptions_at. cbn [filter]. rewrite Nat.eqb_refl. f_equal.
        apply I2. left; exact Ng.
      * assert (g <> g') by (intros ->; contradiction).
        rewrite <- (I1 g' Hg Hh). unfold receptions_at. destruct (hears g); cbn [filter]; [|reflexivity].
        destruct (Nat.eqb_spec g g'); [contradiction|reflexivity].
    + intros g' Hg. unfold receptions_at. destruct (hears g) eqn:Eh; cbn [filter].
      * destruct (Nat.eqb_spec g g') as [->|Ne].
        { exfalso. destruct Hg as [Hg|Hg]; [apply Hg; left; reflexivity|]. congruence. }
        apply I2. destruct Hg as [Hg|Hg]; [left; intros X; apply Hg; right; exact X|right; exact Hg].
      * apply I2. destruct Hg as [Hg|Hg]; [left; intros X; apply Hg; right; exact X|right; exact Hg].
    + unfold drops in *. cbn [filter]. destruct (hears g); cbn [filter negb length]; rewrite I3; reflexivity.
    + cbn [length]. rewrite I4. reflexivity.
    + constructor; [|exact I5]. destruct (hears g); reflexivity.
Qed.
Print Assumptions downlink_per_station.

Example downlink_case :
  match attach_ground gs_new [(3, true); (4, true); (5, true)]%nat with
  | Ok ch => transmit2ground (fun g s => 100 * Z.of_nat (g + s)) (fun p _ _ => p - 20) (Some (fun g _ => negb (g =? 4)%nat))
      (fun s => sat_make LittleEndian 1 0 (Z.of_nat s)) ch 50 10 7%nat 8 30
      = [AtGround 1000 3 50 10 (SrcSat (sat_make LittleEndian 1 0 7)) 8 10; Dropped 50;
         AtGround 1200 5 50 10 (SrcSat (sat_make LittleEndian 1 0 7)) 8 10]
  | _ => False
  end.
Proof. vm_compute. reflexivity. Qed.

(** * C48: between satellites *)

(** Attaching works for at most two devices, all with a position (the second in orbit, with a success model set). *)
Theorem isl_attach : forall success mob l,
  (forall d, In d l -> mob d = Orbit) ->
  (success <> None -> match l with
    | [] | [_] | [_; _] => ss_attach_all success mob ss_new l = Ok (mkSS l (length l =? 2)%nat)
    | _ => ss_attach_all success mob ss_new l = Assert
    end) /\
  (success = None -> (2 <= length l)%nat -> ss_attach_all success mob ss_new l = UB).
Proof.
  intros success mob l M.
  assert (MM : forall d, In d l -> match mob d with NoMobility => false | _ => true end = true) by (intros d H; rewrite (M d H); reflexivity).
  split.
  - intros Sn. destruct success as [f|]; [|congruence]. destruct l as [|a [|b [|c l]]]; cbn; auto.
    + unfold ss_attach. rewrite (M a) by (cbn; auto). reflexivity.
    + unfold ss_attach. rewrite (M a), (M b) by (cbn; auto). reflexivity.
    + unfold ss_attach. rewrite (M a), (M b), (M c) by (cbn; auto). reflexivity.
  - intros -> L. destruct l as [|a [|b l]]; cbn in L; try lia.
    cbn. unfold ss_attach. rewrite (M a), (M b) by (cbn; auto). reflexivity.
Qed.
Print Assumptions isl_attach.

(** Over a link of two different devices, attached in this order, a frame goes to the other end only: one reception
    there after the delay between them, or one drop notice.  Before that nothing can be sent. *)
Theorem isl_opposite_end : forall tx_time delay f mob a b u rate proto,
  mob a = Orbit -> mob b = Orbit -> a <> b ->
  exists ch, ss_attach_all (Some f) mob ss_new [a; b] = Ok ch /\
    ss_device ch 0 = Ok a /\ ss_device ch 1 = Ok b /\ (forall i, (2 <= i)%nat -> ss_device ch i = Abort) /\
    (forall x y, (x = a /\ y = b) \/ (x = b /\ y = a) ->
      ss_transmit tx_time delay (Some f) ch u x rate proto
      = Ok (tx_time rate u, [if f x y then SSAt (delay x y) y u rate proto else SSDropped u])) /\
    (forall d, mob d = Orbit -> ss_attach (Some f) mob ch d = Assert).
Proof.
  intros tx_time delay f mob a b u rate proto Ma Mb Ne.
  assert (M : forall d, In d [a; b] -> mob d = Orbit) by (intros d [<-|[<-|[]]]; assumption).
  destruct (isl_attach (Some f) mob [a; b] M) as [A _]. specialize (A ltac:(discriminate)). cbn [length Nat.eqb] in A.
  exists (mkSS [a; b] true). split; [exact A|]. split; [reflexivity|]. split; [reflexivity|]. split; [|split].
  - intros i Hi. unfold ss_device. cbn [ss_src length]. destruct (Nat.ltb_spec i 2); [lia|reflexivity].
  - intros x y [[-> ->]|[-> ->]]; unfold ss_transmit; cbn [ss_linked ss_src assert_ rbind].
    + rewrite Nat.eqb_refl. destruct (f a b); reflexivity.
    + destruct (Nat.eqb_spec b a); [congruence|]. destruct (f b a); reflexivity.
  - intros d Md. unfold ss_attach. rewrite Md. reflexivity.
Qed.
Print Assumptions isl_opposite_end.

(** With one end or none attached a transmission is refused. *)
Theorem isl_not_linked : forall tx_time delay success mob l ch u src rate proto,
  (length l < 2)%nat -> ss_attach_all success mob ss_new l = Ok ch ->
  ss_transmit tx_time delay success ch u src rate proto = Assert.
Proof.
  intros tx_time delay success mob l ch u src rate proto L A.
  destruct l as [|a [|b l]]; cbn in L; try lia; cbn in A.
  - injection A as <-. reflexivity.
  - unfold ss_attach in A. destruct (mob a); cbn in A; try discriminate; injection A as <-; reflexivity.
Qed.
Print Assumptions isl_not_linked.

Example isl_link_case :
  match ss_attach_all (Some (fun x y => (x <? y)%nat)) (fun _ => Orbit) ss_new [4; 9]%nat with
  | Ok ch => ss_transmit (fun r u => 8000 * u / r) (fun x y => Z.of_nat (10 * x + y)) (Some (fun x y => (x <? y)%nat)) ch 50 4%nat 10 7
       = Ok (40000, [SSAt 49 9 50 10 7]) /\
     ss_transmit (fun r u => 8000 * u / r) (fun x y => Z.of_nat (10 * x + y)) (Some (fun x y => (x <? y)%nat)) ch 50 9%nat 10 7
       = Ok (40000, [SSDropped 50])
  | _ => False
  end.
Proof. vm_compute. split; reflexivity. Qed.

(** * C49: enumeration *)

(** Claimed: the index runs over the satellites, then the ground stations. *)
Definition enumeration_total : Prop := forall h id P S adds c addrs ground,
  (0 < S)%nat -> run_adds h (con_new id P S) adds = Ok (c, addrs) ->
  gs_count (mkGS (Some c) ground) = Ok (length (listing P S adds ++ ground)) /\
  (forall i x, nth_error (map DSat (listing P S adds) ++ map DGround ground) i = Some x ->
     gs_device (mkGS (Some c) ground) i = Ok x) /\
  (forall i, (length (listing P S adds ++ ground) <= i)%nat -> gs_device (mkGS (Some c) ground) i = Abort).

Theorem enumeration_refuted : ~ enumeration_total.
Proof.
  intros H. destruct (run_adds LittleEndian (con_new 1 2 2) [(1, 0, 7)]%nat) as [[c l]| | |] eqn:R; try discriminate R.
  destruct (H _ _ _ _ _ _ _ [3%nat] (Nat.lt_0_succ _) R) as (_ & B & _). specialize (B 0%nat (DSat 7) eq_refl).
  vm_compute in R. injection R as <- <-. vm_compute in B. discriminate.
Qed.
Print Assumptions enumeration_refuted.

(** Holds when the satellites present fill the first places, whatever the stations.  In every case the count is right,
    the stations are found, and what lies beyond the end is refused; without a constellation nothing is defined. *)
Theorem enumeration_partial : forall h id P S adds c addrs ground,
  (0 < S)%nat -> run_adds h (con_new id P S) adds = Ok (c, addrs) ->
  let ch := mkGS (Some c) ground in
  gs_count ch = Ok (length (listing P S adds ++ ground)) /\
  ((forall p i d, added_at adds p i = Some d -> (p * S + i < length adds)%nat) ->
   forall i x, nth_error (map DSat (listing P S adds) ++ map DGround ground) i = Some x -> gs_device ch i = Ok x) /\
  (forall j g, nth_error ground j = Some g -> gs_device ch (length adds + j) = Ok (DGround g)) /\
  (forall i, (length (listing P S adds ++ ground) <= i)%nat -> gs_device ch i = Abort) /\
  (forall i, gs_device (mkGS None ground) i = UB).
Proof.
  intros h id P S adds c addrs ground HS R. cbv zeta.
  destruct (size_and_listing_agree h id P S adds c addrs R) as (Sz & _ & Ls & Pm).
  assert (Ln : length (listing P S adds) = length adds).
  { rewrite <- Ls, (Permutation_length Pm). apply map_length. }
  assert (Ct : gs_count (mkGS (Some c) ground) = Ok (length adds + length ground)%nat).
  { unfold gs_count. cbn [gs_con gs_ground]. rewrite Sz. reflexivity. }
  split; [rewrite Ct, app_length, Ln; reflexivity|]. split; [|split; [|split]].
  - intros Full i x N. unfold gs_device. rewrite Ct. cbn [rbind gs_con gs_ground]. rewrite Sz. cbn [rbind].
    assert (Li : (i < length adds + length ground)%nat).
    { assert (X : nth_error (map DSat (listing P S adds) ++ map DGround ground) i <> None) by congruence.
      apply nth_error_Some in X. rewrite app_length, !map_length, Ln in X. exact X. }
    destruct (Nat.ltb_spec i (length adds + length ground)); [|lia]. cbn [abort_unless rbind].
    destruct (Nat.ltb_spec i (length adds)) as [Lt|Ge].
    + destruct (flat_index_partial h id P S adds c addrs HS R) as (_ & B & _). rewrite (B Full i Lt). cbn [rbind].
      rewrite nth_error_app1 in N by (rewrite map_length, Ln; exact Lt). rewrite nth_error_map, <- Ls in N.
      destruct (nth_error (container c) i); cbn in *; congruence.
    + rewrite nth_error_app2 in N by (rewrite map_length, Ln; exact Ge). rewrite map_length, Ln, nth_error_map in N.
      destruct (nth_error ground (i - length adds)); cbn in *; congruence.
  - intros j g N. unfold gs_device. rewrite Ct. cbn [rbind gs_con gs_ground]. rewrite Sz. cbn [rbind].
    assert (Lj : (j < length ground)%nat) by (apply nth_error_Some; congruence).
    destruct (Nat.ltb_spec (length adds + j) (length adds + length ground)); [|lia]. cbn [abort_unless rbind].
    destruct (Nat.ltb_spec (length adds + j) (length adds)); [lia|].
    replace (length adds + j - length adds)%nat with j by lia. rewrite N. reflexivity.
  - intros i Hi. unfold gs_device. rewrite Ct. cbn [rbind]. rewrite app_length, Ln in Hi.
    destruct (Nat.ltb_spec i (length adds + length ground)); [lia|reflexivity].
  - reflexivity.
Qed.
Print Assumptions enumeration_partial.

Example enumeration_case :
  match run_adds LittleEndian (con_new 1 2 2) [(0, 1, 7); (0, 0, 8); (1, 0, 9)]%nat with
  | Ok (c, _) => map (gs_device (mkGS (Some c) [20; 21]%nat)) (seq 0 6)
     = [Ok (DSat 8); Ok (DSat 7); Ok (DSat 9); Ok (DGround 20); Ok (DGround 21); Abort]
  | _ => False
  end.
Proof. vm_compute. reflexivity. Qed.
