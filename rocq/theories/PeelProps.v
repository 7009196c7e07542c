(** C84: with slots and without capture, the receiver decodes exactly what peeling the collisions decodes. *)
From Coq Require Import ZArith List Lia Bool Permutation.
From Verif Require Import Base RxModel RxSpec RxProofs AlohaModel AlohaSpec AlohaProofs CrdsaModel CrdsaSpec CrdsaProofs CrdsaRun CrdsaSafe
  PeelSpec PeelProofs SlotSpec SlotProofs.
Import ListNotations.
Open Scope Z_scope.

(** Whatever the lengths of the frames: what has been passed up is what peeling the busy periods so far decodes. *)
Theorem busy_periods_decoded : forall below two garbage frame ops s, (forall p i, 0 < i -> below p i = true) ->
  rx_run (crdsa_mac below two) (rx_init (crdsa_init garbage)) ops = Some (Ok s) ->
  sane ops -> separate [] ops -> finish_first [] ops -> Forall (fun r => 0 < rx_pow r) (receptions ops) -> framed two frame ops ->
  NoDup (flat_map snd (st_log s)) /\ forall u, In u (flat_map snd (st_log s)) <-> peels (collisions_of ops) u.
Proof.
  intros below two garbage frame ops s NC R Sa Se Ff Po Fr.
  pose proof (peel_holds below two garbage frame NC ops s R Sa Se Ff Po Fr) as [P1 P2 _ _ _ _ P7 _ _].
  split; [exact P7|]. intros u. split; [apply P2|]. intros P. exact (P _ P1).
Qed.
Print Assumptions busy_periods_decoded.

Lemma peels_same : forall a b, incl a b -> incl b a -> forall u, peels a u <-> peels b u.
Proof. intros a b H1 H2 u. split; apply peel_mono; assumption. Qed.

(** In a slotted schedule the collisions are the slots. *)
Theorem slots_decoded : forall below two garbage slot frame ops s, (forall p i, 0 < i -> below p i = true) ->
  rx_run (crdsa_mac below two) (rx_init (crdsa_init garbage)) ops = Some (Ok s) -> st_pending s = [] ->
  sane ops -> slotted slot ops -> Forall (fun r => 0 < rx_pow r) (receptions ops) -> frame_slots two frame slot (receptions ops) ->
  NoDup (flat_map snd (st_log s)) /\
  forall u, In u (flat_map snd (st_log s)) <-> peels (slot_contents slot (receptions ops)) u.
Proof.
  intros below two garbage slot frame ops s NC R Id Sa Sl Po Fs.
  pose proof (slots_hold slot _ _ ops s R Sa Sl) as [I1 I2 _ _ _ _].
  pose proof (slots_framed slot _ _ two frame ops s R Sa Sl Fs) as Fr.
  destruct (busy_periods_decoded below two garbage frame ops s NC R Sa I1 I2 Po Fr) as [N E]. split; [exact N|].
  intros u. rewrite E. destruct (idle_slots slot _ _ ops s R Sa Sl Id) as [H1 H2]. apply peels_same; assumption.
Qed.
Print Assumptions slots_decoded.

(** Slots of 10 from 0. Packets 1 and 2 meet in the first, 2 and 3 in the second, 3 is alone in the third: all of
    them are decoded when it ends. 4 and 5 only meet each other. *)
Definition chain_ops : list rx_op :=
  [OStart 0 1 5 1; OStart 1 2 6 1; OFinish; OFinish; OStart 10 2 6 1; OStart 10 3 5 1; OFinish; OFinish;
   OStart 20 4 5 1; OStart 22 5 5 1; OFinish; OFinish; OStart 30 3 5 1; OFinish].
Definition tens (r : reception) : Z := rx_start r / 10.
Definition by_packet (u : Z) : Z := if u <? 4 then 0 else 1.

Example slots_decoded_case :
  match rx_run (crdsa_mac no_capture 100) (rx_init (crdsa_init 0)) chain_ops with
  | Some (Ok s) => st_pending s = [] /\ flat_map snd (st_log s) = [3; 2; 1]
  | _ => False
  end /\
  slot_contents tens (receptions chain_ops) = [[1; 2]; [2; 3]; [4; 5]; [3]] /\
  slotted tens chain_ops /\ frame_slots 100 by_packet tens (receptions chain_ops).
Proof.
  split; [vm_compute; split; reflexivity|]. split; [reflexivity|]. split.
  - split; [|split].
    + intros a b Ha Hb. cbn in Ha, Hb. repeat (destruct Ha as [<-|Ha]; [repeat (destruct Hb as [<-|Hb]; [vm_compute; try discriminate; reflexivity|]); destruct Hb|]). destruct Ha.
    + intros a b Ha Hb. cbn in Ha, Hb. repeat (destruct Ha as [<-|Ha]; [repeat (destruct Hb as [<-|Hb]; [vm_compute; try discriminate; reflexivity|]); destruct Hb|]). destruct Ha.
    + cbn. repeat constructor; cbn; intuition discriminate.
  - split.
    + intros a b Ha Hb. cbn in Ha, Hb. repeat (destruct Ha as [<-|Ha]; [repeat (destruct Hb as [<-|Hb]; [vm_compute; try discriminate; reflexivity|]); destruct Hb|]). destruct Ha.
    + intros a b Ha Hb. cbn in Ha, Hb. repeat (destruct Ha as [<-|Ha]; [repeat (destruct Hb as [<-|Hb]; [vm_compute; try discriminate; reflexivity|]); destruct Hb|]). destruct Ha.
Qed.

Example chain_decoded : peels [[1; 2]; [2; 3]; [4; 5]; [3]] 1 /\ ~ peels [[1; 2]; [2; 3]; [4; 5]; [3]] 4.
Proof.
  assert (P3 : peels [[1; 2]; [2; 3]; [4; 5]; [3]] 3).
  { apply (peels_closed _ [3]); cbn; auto 6. intros v [<-|[]] N; congruence. }
  assert (P2 : peels [[1; 2]; [2; 3]; [4; 5]; [3]] 2).
  { apply (peels_closed _ [2; 3]); cbn; auto 6. intros v [<-|[<-|[]]] N; first [assumption|congruence]. }
  split.
  - apply (peels_closed _ [1; 2]); cbn; auto 6. intros v [<-|[<-|[]]] N; first [assumption|congruence].
  - intros P. assert (X : 4 <> 4 /\ 4 <> 5); [|lia]. apply (P (fun v => v <> 4 /\ v <> 5)).
    intros c u Hc Hu Hv. cbn in Hc. destruct Hc as [<-|[<-|[<-|[<-|[]]]]]; cbn in Hu.
    + destruct Hu as [<-|[<-|[]]]; lia.
    + destruct Hu as [<-|[<-|[]]]; lia.
    + destruct Hu as [<-|[<-|[]]]; exfalso.
      * destruct (Hv 5); cbn; auto; lia.
      * destruct (Hv 4); cbn; auto; lia.
    + destruct Hu as [<-|[]]; lia.
Qed.

(** ** Both conditions are needed *)

(** A receiver that forgets a collision before the frame is over: 2 arrives alone after 30, 1 stays lost. *)
Definition late_ops : list rx_op := [OStart 0 1 5 1; OStart 0 2 5 1; OFinish; OFinish; OStart 30 2 5 1; OFinish].

Theorem slots_decoded_memory_refuted :
  ~ (forall below two garbage slot ops s, (forall p i, 0 < i -> below p i = true) -> 0 < two ->
       rx_run (crdsa_mac below two) (rx_init (crdsa_init garbage)) ops = Some (Ok s) -> st_pending s = [] ->
       sane ops -> slotted slot ops -> Forall (fun r => 0 < rx_pow r) (receptions ops) ->
       forall u, In u (flat_map snd (st_log s)) <-> peels (slot_contents slot (receptions ops)) u).
Proof.
  intros H. destruct (rx_run (crdsa_mac no_capture 20) (rx_init (crdsa_init 0)) late_ops) as [[s| | |]|] eqn:R; try discriminate.
  specialize (H no_capture 20 0 tens late_ops s (fun _ i H => proj2 (Z.ltb_lt 0 i) H) ltac:(lia) R). vm_compute in R. injection R as <-.
  assert (X : In 1 [2]).
  { apply (H eq_refl).
    - repeat constructor.
    - split; [|split].
      + intros a b Ha Hb. cbn in Ha, Hb. repeat (destruct Ha as [<-|Ha]; [repeat (destruct Hb as [<-|Hb]; [vm_compute; try discriminate; reflexivity|]); destruct Hb|]). destruct Ha.
      + intros a b Ha Hb. cbn in Ha, Hb. repeat (destruct Ha as [<-|Ha]; [repeat (destruct Hb as [<-|Hb]; [vm_compute; try discriminate; reflexivity|]); destruct Hb|]). destruct Ha.
      + cbn. repeat constructor; cbn; intuition discriminate.
    - repeat constructor.
    - change (slot_contents tens (receptions late_ops)) with [[1; 2]; [2]].
      apply (peels_closed _ [1; 2]); cbn; auto. intros v [<-|[<-|[]]] N; [congruence|].
      apply (peels_closed _ [2]); cbn; auto. intros v [<-|[]] N'; congruence. }
  destruct X as [X|[]]; discriminate.
Qed.
Print Assumptions slots_decoded_memory_refuted.

(** With capture a packet may come out of a collision that peeling leaves untouched. *)
Definition strong_ops : list rx_op := [OStart 0 1 5 9; OStart 0 2 5 1; OFinish; OFinish].

Theorem slots_decoded_capture_refuted :
  ~ (forall below two garbage slot frame ops s,
       rx_run (crdsa_mac below two) (rx_init (crdsa_init garbage)) ops = Some (Ok s) -> st_pending s = [] ->
       sane ops -> slotted slot ops -> Forall (fun r => 0 < rx_pow r) (receptions ops) -> frame_slots two frame slot (receptions ops) ->
       forall u, In u (flat_map snd (st_log s)) <-> peels (slot_contents slot (receptions ops)) u).
Proof.
  intros H. destruct (rx_run (crdsa_mac Z.leb 100) (rx_init (crdsa_init 0)) strong_ops) as [[s| | |]|] eqn:R; try discriminate.
  specialize (H Z.leb 100 0 tens (fun _ => 0) strong_ops s R). vm_compute in R. injection R as <-.
  assert (X : peels [[1; 2]] 1).
  { apply (H eq_refl).
    - repeat constructor.
    - split; [|split].
      + intros a b Ha Hb. cbn in Ha, Hb. repeat (destruct Ha as [<-|Ha]; [repeat (destruct Hb as [<-|Hb]; [vm_compute; try discriminate; reflexivity|]); destruct Hb|]). destruct Ha.
      + intros a b Ha Hb. cbn in Ha, Hb. repeat (destruct Ha as [<-|Ha]; [repeat (destruct Hb as [<-|Hb]; [vm_compute; try discriminate; reflexivity|]); destruct Hb|]). destruct Ha.
      + cbn. repeat constructor; cbn; intuition discriminate.
    - repeat constructor.
    - split; intros a b Ha Hb; cbn in Ha, Hb; repeat (destruct Ha as [<-|Ha]; [repeat (destruct Hb as [<-|Hb]; [vm_compute; try discriminate; reflexivity|]); destruct Hb|]); destruct Ha.
    - cbn. auto. }
  apply (X (fun _ => False)). intros c u [<-|[]] Hu Hv. cbn in Hu. destruct Hu as [<-|[<-|[]]].
  - apply (Hv 2); cbn; auto. lia.
  - apply (Hv 1); cbn; auto. lia.
Qed.
Print Assumptions slots_decoded_capture_refuted.
