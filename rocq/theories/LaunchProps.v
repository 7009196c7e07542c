(** C12, C13. *)
From Coq Require Import ZArith QArith List Lia Bool Arith.
From Coq.Floats Require Import SpecFloat.
From Verif Require Import Base SatAddrModel SatAddrProofs ConstellationModel ConstellationSpec
  ConstellationProofs LaunchModel LaunchSpec LaunchProofs.
Import ListNotations.
Open Scope nat_scope.

(** C12, with exact angles. *)
Theorem launch_order_and_elements : forall debug ho id P S F alt inc ds,
  0 < P -> 0 < S -> length ds <= P * S ->
  exists s outs,
    launch_all rational debug ho (helper_new rational id alt inc P S F) ds = Ok (s, outs) /\
    length outs = length ds /\
    (forall k a o, nth_error outs k = Some (a, o) ->
       a = sat_make ho id (Z.of_nat (k / S)) (Z.of_nat (k mod S)) /\
       o_inclination o = inc /\ o_altitude o = alt /\
       (o_ascending_node o == walker_node P S k)%Q /\
       (o_phase o == walker_phase P S F k)%Q) /\
    (forall k, k < length ds -> get_satellite (h_con s) (k / S) (k mod S) = Ok (nth_error ds k)) /\
    get_size (h_con s) = Ok (length ds).
Proof.
  intros debug ho id P S F alt inc ds HP HS L.
  destruct (launch_all_inv debug ho id P S F alt inc ds HP HS L) as (s & outs & E & I & Lo & H).
  exists s, outs. split; [exact E|]. split; [exact Lo|]. split.
  - intros k a o Hk. apply H in Hk. exact Hk.
  - destruct I as ([l R] & _).
    destruct (run_adds_wf _ _ _ _ _ (new_wf id P S) R) as (W & _ & CP & CS & Cn). cbn in CP, CS.
    rewrite launch_adds_length in Cn. cbn in Cn. split.
    + intros k Hk. assert (Hk2 : k < P * S) by lia. destruct (flat_slot P S k Hk2) as [Kp Ks].
      unfold get_satellite. rewrite CP, CS.
      rewrite (proj2 (Nat.leb_le (k / S) P)) by lia. rewrite (proj2 (Nat.leb_le (k mod S) S)) by lia.
      cbn [assert_ rbind]. rewrite (run_new_at _ _ _ _ _ _ _ R _ _ Kp Ks). f_equal.
      destruct (nth_error ds k) as [d|] eqn:D; [|apply nth_error_None in D; lia].
      apply added_at_In.
      * exact (proj1 (proj1 (run_adds_admissible _ _ _ _ _ (new_wf id P S) R))).
      * unfold launch_adds. apply in_map_iff. exists (k, d). split; [reflexivity|].
        apply nth_error_In with (n := k). clear - D.
        assert (G : forall (l : list nat) s n, nth_error l n = Some d ->
                    nth_error (combine (seq s (length l)) l) n = Some (s + n, d)).
        { induction l; intros s n; destruct n; simpl; intros; try discriminate.
          - inversion H. rewrite Nat.add_0_r. reflexivity.
          - rewrite (IHl (S s) n H). f_equal. f_equal. lia. }
        apply (G ds 0 k D).
    + unfold get_size. rewrite CP, CS, Cn. rewrite (proj2 (Nat.leb_le (length ds) (P * S)) L). reflexivity.
Qed.
Print Assumptions launch_order_and_elements.

(** After P*S launches every slot is occupied. *)
Theorem launch_fills_constellation : forall debug ho id P S F alt inc ds s outs,
  0 < P -> 0 < S -> length ds = P * S ->
  launch_all rational debug ho (helper_new rational id alt inc P S F) ds = Ok (s, outs) ->
  forall p i, p < P -> i < S -> exists d, In d ds /\ get_satellite (h_con s) p i = Ok (Some d).
Proof.
  intros debug ho id P S F alt inc ds s outs HP HS L E p i Hp Hi.
  destruct (launch_order_and_elements debug ho id P S F alt inc ds HP HS ltac:(lia))
    as (s' & outs' & E' & _ & _ & G & _).
  rewrite E' in E. inversion E; subst.
  destruct (flat_back S p i Hi) as [D M].
  specialize (G (p * S + i)). rewrite D, M in G.
  assert (K : p * S + i < length ds) by (rewrite L; nia).
  rewrite G by exact K. destruct (nth_error ds (p * S + i)) eqn:N.
  - exists n. split; [eapply nth_error_In; eauto | reflexivity].
  - apply nth_error_None in N. lia.
Qed.
Print Assumptions launch_fills_constellation.

Example launch_case :
  rmap (fun r => map (fun x => (fst x, Qred (o_ascending_node (snd x)), Qred (o_phase (snd x)))) (snd r))
   (launch_all rational true LittleEndian (helper_new rational 1 550%Q 53%Q 2 3 1) [0; 1; 2; 3; 4])
  = Ok [ (sat_make LittleEndian 1 0 0, 0%Q, 0%Q);
         (sat_make LittleEndian 1 0 1, 0%Q, 120%Q);
         (sat_make LittleEndian 1 0 2, 0%Q, 240%Q);
         (sat_make LittleEndian 1 1 0, 180%Q, 60%Q);
         (sat_make LittleEndian 1 1 1, 180%Q, 180%Q) ].
Proof. vm_compute. reflexivity. Qed.

(** C13: the guard never fires for the first launch too many. *)
Definition overlaunch_rejected : Prop := forall debug ho id P S F alt inc ds s outs d,
  0 < P -> 0 < S -> length ds = P * S ->
  launch_all rational debug ho (helper_new rational id alt inc P S F) ds = Ok (s, outs) ->
  launch rational debug ho s d = Abort.

Theorem overlaunch_rejected_refuted : ~ overlaunch_rejected.
Proof.
  intros H.
  destruct (launch_all rational false LittleEndian (helper_new rational 1 550%Q 53%Q 1 1 0) [0]) as [[s o]| | |] eqn:E;
    try discriminate E.
  specialize (H false LittleEndian 1%Z 1 1 0 550%Q 53%Q [0] s o 1 (le_n 1) (le_n 1) eq_refl E).
  vm_compute in E. inversion E; subst. vm_compute in H. discriminate.
Qed.
Print Assumptions overlaunch_rejected_refuted.

(** With exact angles, for every size: a failed assertion in debug builds, a write outside the
    constellation in optimised ones.  Missing for the full claim: the intended abort. *)
Theorem overlaunch_partial : forall debug ho id P S F alt inc ds s outs d,
  0 < P -> 0 < S -> length ds = P * S ->
  launch_all rational debug ho (helper_new rational id alt inc P S F) ds = Ok (s, outs) ->
  launch rational debug ho s d = if debug then Assert else UB.
Proof.
  intros debug ho id P S F alt inc ds s outs d HP HS L E.
  destruct (launch_all_inv debug ho id P S F alt inc ds HP HS ltac:(lia)) as (s' & o' & E' & I & _).
  rewrite E' in E. injection E as <- <-. exact (overlaunch debug ho id P S F alt inc ds s' d HP HS I L).
Qed.
Print Assumptions overlaunch_partial.

(** With binary64 angles even debug builds write out of bounds: thirteen times 360/13 rounds to less
    than 360, so the assertion on the ascending node passes. *)
Theorem overlaunch_debug_float_refuted :
  match launch_all binary64 true LittleEndian
          (helper_new binary64 1 (S754_zero false) (S754_zero false) 13 1 0) (seq 0 13) with
  | Ok (s, _) => launch binary64 true LittleEndian s 13 = UB
  | _ => False
  end.
Proof. vm_compute. reflexivity. Qed.
Print Assumptions overlaunch_debug_float_refuted.
