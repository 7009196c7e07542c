(** C137: constellations launched in double precision. *)
From Coq Require Import ZArith QArith Qreals List Lia Bool Arith Reals Lra.
From Flocq Require Import Core BinarySingleNaN.
From Verif Require Import Base SatAddrModel ConstellationModel ConstellationSpec ConstellationProofs LaunchModel LaunchSpec LaunchProofs DoubleModel DoubleSpec DoubleProofs LaunchDoubleModel LaunchDoubleSpec LaunchDoubleProofs.
Import ListNotations.
Open Scope R_scope.

(** No assertion fails, the constellation is the one of exact angles, and the elements are right to a billionth of a degree (ascending
    nodes) and two parts in ten million (phases). *)
Theorem launch_double : forall debug ho id P S F alt inc ds qalt qinc, sizes P S F -> (length ds <= P * S)%nat ->
  exists s outs, launch_all doubles debug ho (helper_new doubles id alt inc P S F) ds = Ok (s, outs) /\ length outs = length ds /\
    (exists s' outs', launch_all rational debug ho (helper_new rational id qalt qinc P S F) ds = Ok (s', outs') /\ h_con s = h_con s') /\
    forall k a o, nth_error outs k = Some (a, o) ->
      a = sat_make ho id (Z.of_nat (k / S)) (Z.of_nat (k mod S)) /\ o_inclination o = inc /\ o_altitude o = alt /\
      about (o_ascending_node o) (node_degrees P S k) (1 / 10 ^ 9) /\ about (o_phase o) (phase_degrees P S F k) (2 / 10 ^ 7).
Proof.
  intros debug ho id P S F alt inc ds qalt qinc Z L.
  assert (I : exists s outs, launch_all doubles debug ho (helper_new doubles id alt inc P S F) ds = Ok (s, outs) /\ dinv ho id P S F alt inc ds s /\ length outs = length ds /\
    forall k a o, nth_error outs k = Some (a, o) -> a = sat_make ho id (Z.of_nat (k / S)) (Z.of_nat (k mod S)) /\ o_inclination o = inc /\ o_altitude o = alt /\
      about (o_ascending_node o) (node_degrees P S k) (1 / 10 ^ 9) /\ about (o_phase o) (phase_degrees P S F k) (2 / 10 ^ 7)).
  { revert L. induction ds as [|d ds IH] using rev_ind; intros L.
    - do 2 eexists. split; [reflexivity|]. split; [apply dinv_new; exact Z|]. split; [reflexivity|]. intros [|k] a o H; discriminate.
    - rewrite app_length in L; simpl in L. destruct IH as (s & outs & E & I & Lo & H); [lia|].
      destruct (dinv_step debug ho id P S F alt inc ds s d Z I ltac:(lia)) as (s' & a & o & E' & Ha & Hi & Hal & Hn & Hp & I').
      exists s', (outs ++ [(a, o)]). rewrite launch_all_snoc, E. simpl. rewrite E'. simpl. split; [reflexivity|]. split; [exact I'|]. split; [rewrite !app_length; simpl; lia|].
      intros k a' o' Hx. destruct (lt_dec k (length outs)) as [K|K].
      + rewrite nth_error_app1 in Hx by auto. auto.
      + rewrite nth_error_app2 in Hx by lia. destruct (k - length outs)%nat eqn:Q; [|destruct n; discriminate]. simpl in Hx. inversion Hx; subst. assert (k = length ds) by lia. subst k. auto. }
  destruct I as (s & outs & E & I & Lo & H). exists s, outs. split; [exact E|]. split; [exact Lo|]. split; [|exact H].
  destruct Z as (HP & HS & HF). destruct (launch_all_inv debug ho id P S F qalt qinc ds ltac:(lia) ltac:(lia) L) as (s' & outs' & E' & I' & _). exists s', outs'. split; [exact E'|].
  destruct I as ((l & R) & _). destruct I' as ((l' & R') & _). rewrite R in R'. injection R' as Hc _. exact Hc.
Qed.
Print Assumptions launch_double.

(** The closed forms are those of the exact launch. *)
Lemma degrees_exact : forall P S F k, sizes P S F -> node_degrees P S k = Q2R (walker_node P S k) /\ phase_degrees P S F k = Q2R (walker_phase P S F k).
Proof.
  intros P S F k (HP & HS & HF). assert (Q : forall n, Q2R (q n) = INR n) by (intros n; unfold q, Q2R, inject_Z; cbn; rewrite <- INR_IZR_INZ; field).
  pose proof (thousand P HP) as Bp. pose proof (thousand S HS) as Bs. unfold node_degrees, phase_degrees, walker_node, walker_phase.
  assert (NP : ~ (q P == 0)%Q) by (apply q_nz; lia). assert (NS : ~ (q S == 0)%Q) by (apply q_nz; lia).
  assert (NM : ~ (q S * q P == 0)%Q) by (intros X; apply Qmult_integral in X; tauto).
  rewrite Q2R_plus, !Q2R_div, !Q2R_mult, !Q2R_div, !Q2R_mult, !Q by assumption. rewrite r360. split; reflexivity.
Qed.

(** Three planes of seven with phasing one: the last satellite. *)
Example launch_double_case : exists s outs a o,
  launch_all doubles true LittleEndian (helper_new doubles 1 (dint 650) (dint 53) 3 7 1) (seq 0 21) = Ok (s, outs) /\ nth_error outs 20 = Some (a, o) /\
  about (o_ascending_node o) 240 (1 / 10 ^ 9) /\ about (o_phase o) (6 * 360 / 7 + 240 / 7) (2 / 10 ^ 7).
Proof.
  destruct (launch_double true LittleEndian 1 3 7 1 (dint 650) (dint 53) (seq 0 21) 0%Q 0%Q) as (s & outs & E & L & _ & H); [unfold sizes; lia|cbn; lia|].
  destruct (nth_error outs 20) as [[a o]|] eqn:N; [|apply nth_error_None in N; rewrite L in N; cbn in N; lia]. exists s, outs, a, o. destruct (H 20%nat a o N) as (_ & _ & _ & An & Ap). split; [exact E|]. split; [exact N|].
  assert (V : node_degrees 3 7 20 = 240 /\ phase_degrees 3 7 1 20 = 6 * 360 / 7 + 240 / 7).
  { unfold node_degrees, phase_degrees. change (20 / 7)%nat with 2%nat. change (20 mod 7)%nat with 6%nat. cbn [INR]. split; field. }
  destruct V as (V1 & V2). rewrite V1 in An. rewrite V2 in Ap. split; assumption.
Qed.
