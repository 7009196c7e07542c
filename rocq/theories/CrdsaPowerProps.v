From Coq Require Import ZArith List Lia Bool Reals Lra.
From Flocq Require Import Core BinarySingleNaN.
From Verif Require Import Base RxModel RxSpec RxProofs AlohaModel AlohaSpec AlohaProofs AlohaProps CrdsaModel DoubleModel DoubleSpec DoubleProofs PowerModel PowerSpec PowerProofs PowerProps CrdsaPowerModel CrdsaPowerProofs.
Import ListNotations.
Open Scope Z_scope.

(** ** C117 *)

(** Either both receivers run through the schedule, with the same packets passed up at the end of every frame, or neither does. *)
Definition same_run (low : double -> bool) (below : Z -> Z -> bool) (two g : Z) (gd : double) (ops : list rx_op) : Prop :=
  let x := rx_run (crdsa_d_mac low two) (rx_init (cd_init gd)) ops in
  let e := rx_run (crdsa_mac below two) (rx_init (crdsa_init g)) ops in
  (forall s, e = Some (Ok s) -> exists d, x = Some (Ok d) /\ st_log d = st_log s) /\
  (forall d, x = Some (Ok d) -> exists s, e = Some (Ok s) /\ st_log d = st_log s).

Lemma aloha_total : forall below x r, exists y, mac_finish (aloha_mac below) x r = Ok y.
Proof. intros. cbn. unfold aloha_finish. eauto. Qed.
Lemma aloha_d_total : forall low x r, exists y, mac_finish (aloha_d_mac low) x r = Ok y.
Proof. intros. cbn. unfold ad_end. eauto. Qed.

Lemma same_run_of : forall low below two g gd ops,
  (forall s d, rx_run (aloha_mac below) (rx_init (aloha_init g)) ops = Some (Ok s) -> rx_run (aloha_d_mac low) (rx_init (ad_init gd)) ops = Some (Ok d) ->
    st_log d = st_log s) -> same_run low below two g gd ops.
Proof.
  intros low below two g gd ops H.
  assert (K : forall d s, rx_run (aloha_d_mac low) (rx_init (ad_init gd)) ops = Some (Ok d) -> rx_run (aloha_mac below) (rx_init (aloha_init g)) ops = Some (Ok s) ->
    same_outcome (rx_run (crdsa_d_mac low two) (rx_init (cd_init gd)) ops) (rx_run (crdsa_mac below two) (rx_init (crdsa_init g)) ops)).
  { intros d s Rd Rs. apply (twin_run low below two ops _ _ (rx_init (ad_init gd)) (rx_init (aloha_init g)) d s (st_log s)); auto; try (unfold beside, beside_d; cbn; auto; fail).
    - unfold twin. cbn. auto 12. }
  split; intros s R.
  - destruct (playable _ _ _ (aloha_mac below) (aloha_total below) ops _ _ (rx_init (aloha_init g)) R) as (a & Ra); [reflexivity..|].
    destruct (playable _ _ _ (aloha_d_mac low) (aloha_d_total low) ops _ _ (rx_init (ad_init gd)) R) as (b & Rb); [reflexivity..|].
    specialize (K b a Rb Ra). rewrite R in K. destruct (rx_run (crdsa_d_mac low two) _ ops) as [[d| | |]|]; try contradiction. eauto.
  - destruct (playable _ _ _ (aloha_mac below) (aloha_total below) ops _ _ (rx_init (aloha_init g)) R) as (a & Ra); [reflexivity..|].
    destruct (playable _ _ _ (aloha_d_mac low) (aloha_d_total low) ops _ _ (rx_init (ad_init gd)) R) as (b & Rb); [reflexivity..|].
    specialize (K b a Rb Ra). rewrite R in K. destruct (rx_run (crdsa_mac below two) _ ops) as [[d| | |]|]; try contradiction. eauto.
Qed.

(** With a threshold, frames comparable and none close to it. *)
Theorem crdsa_power_threshold : forall t low below two g gd ops, (0 < t)%R -> tells t low -> rule t below ->
  sane ops -> separate [] ops -> finish_first [] ops -> Forall sound_power (receptions ops) ->
  (forall e, In e (stretches [] None [] ops) -> snd e <> [] -> comparable (crowd e) /\ clear t (rx_pow (fst (fst e))) (against e)) ->
  same_run low below two g gd ops.
Proof. intros t low below two g gd ops Ht Tl Ru Sa Se Ff Po Hc. apply same_run_of. intros s d Rs Rd. apply (power_threshold t low below g gd ops s d); assumption. Qed.
Print Assumptions crdsa_power_threshold.

(** With the default one, if no frame is so strong that the others are lost in its rounding. *)
Theorem crdsa_power_default : forall two g gd ops,
  sane ops -> separate [] ops -> finish_first [] ops -> Forall sound_power (receptions ops) ->
  (forall e, In e (stretches [] None [] ops) -> Z.of_nat (length (crowd e)) <= 2 ^ 40 /\
     (snd e <> [] -> Z.of_nat (length (crowd e)) * rx_pow (fst (fst e)) < 2 ^ 50 * against e)) ->
  same_run low_max no_capture two g gd ops.
Proof. intros two g gd ops Sa Se Ff Po Hc. apply same_run_of. intros s d Rs Rd. apply (power_default_same g gd ops s d); assumption. Qed.
Print Assumptions crdsa_power_default.

(** The last condition is needed: two packets collide, 160 dB apart.  The stronger is passed up, and then the weaker, as all that it
    has collided with is known; with exact powers both have to wait for a replica. *)
Theorem crdsa_power_refuted : exists ops (s : rx_state crdsa) (d : rx_state crdsa_d),
  rx_run (crdsa_mac no_capture 100) (rx_init (crdsa_init 0)) ops = Some (Ok s) /\ rx_run (crdsa_d_mac low_max 100) (rx_init (cd_init (dint 0))) ops = Some (Ok d) /\
  sane ops /\ separate [] ops /\ finish_first [] ops /\ Forall sound_power (receptions ops) /\
  map snd (st_log s) = [[]; []; [2; 1]] /\ map snd (st_log d) = [[1]; [2]; []].
Proof.
  exists [OStart 0 1 10 (1 * 2 ^ 1074); OStart 5 2 10 (1 * 2 ^ 1020); OFinish; OFinish; OStart 20 2 10 (1 * 2 ^ 1020); OFinish]. eexists. eexists.
  split; [vm_compute; reflexivity|]. split; [vm_compute; reflexivity|].
  split; [repeat constructor; cbn; lia|]. split; [repeat constructor; cbn; lia|]. split; [repeat constructor; cbn; lia|].
  split; [|split; reflexivity]. repeat constructor; apply sound_dec; lia.
Qed.
Print Assumptions crdsa_power_refuted.

(** Packets 1 and 2 collide, a replica of 1 comes alone and 2 is recovered; powers as in milliwatts of a link 130 dB weaker than 1 mW. *)
Example crdsa_power_case :
  let ops := [OStart 0 1 10 (1 * 2 ^ 1031); OStart 3 2 10 (3 * 2 ^ 1030); OFinish; OFinish; OStart 20 1 10 (1 * 2 ^ 1031); OFinish] in
  Forall sound_power (receptions ops) /\ finish_first [] ops /\ separate [] ops /\ sane ops /\
  (forall e, In e (stretches [] None [] ops) -> Z.of_nat (length (crowd e)) <= 2 ^ 40 /\
     (snd e <> [] -> Z.of_nat (length (crowd e)) * rx_pow (fst (fst e)) < 2 ^ 50 * against e)) /\
  match rx_run (crdsa_d_mac low_max 100) (rx_init (cd_init (dint 0))) ops with
  | Some (Ok d) => map snd (st_log d) = [[]; []; [1; 2]] | _ => False end.
Proof.
  cbv zeta. split; [repeat constructor; apply sound_dec; lia|]. split; [repeat constructor; cbn; lia|]. split; [repeat constructor; cbn; lia|].
  split; [repeat constructor; cbn; lia|]. split; [|vm_compute; reflexivity].
  intros e He. vm_compute in He. repeat (destruct He as [<-|He]; [vm_compute; split; [discriminate|reflexivity || (intros X; exfalso; apply X; reflexivity)]|]). contradiction.
Qed.
