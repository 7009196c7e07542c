(** The devices of the two kinds of link, as the proofs about links need them. *)
From Coq Require Import ZArith List Lia Bool Arith Permutation Sorted.
From Verif Require Import Base SatAddrModel DeviceModel DeviceSpec DeviceProofs ChannelModel LinkModel LinkSpec LinkProofs.
Import ListNotations.
Open Scope Z_scope.

Section Devices.
Variable dur : Z -> Z.
Hypothesis dur_pos : forall u, 0 <= dur u.
Variable fits : list Z -> Z -> bool.

Lemma s_moves : forall d tr o d' ev, d_inv dur d tr -> s_step fits dur d o = Some (Ok (d', ev)) ->
  d_inv dur d' (tr ++ ev) /\ moves dur d o ev d'.
Proof.
  intros d tr o d' ev I St. split.
  { pose proof (d_step dur dur_pos fits d tr o I) as S. rewrite St in S. exact S. }
  destruct I as [Ti Tg Nd As]. pose proof (t_shape dur d tr Ti) as Sh. destruct o as [t u p|]; cbn [s_step] in St.
  - change ((s_now d <=? t) && forallb (fun c => t <=? c_end c) (s_pending d)) with (on_time d t) in St.
    destruct (on_time d t) eqn:T; [|discriminate]. apply some_inj in St. unfold s_send in St.
    destruct (find_tag u (s_tags d)) eqn:Fu; [discriminate|]. destruct (fits (s_queue d) u); [destruct (s_busy d) eqn:B|].
    + injection St as <- <-. apply mv_wait; assumption.
    + destruct Sh as [(_ & P & Q)|[B' _]]; [|congruence]. unfold s_transmit_start in St. rewrite Q, P in St.
      cbn [s_busy s_queue s_tags app assert_ rbind] in St. rewrite find_tag_cons, Z.eqb_refl in St. cbn in St. injection St as <- <-.
      apply mv_go; assumption.
    + injection St as <- <-. apply mv_refuse; assumption.
  - destruct Sh as [(B & P & Q)|[B [c P]]]; rewrite P in *; [discriminate|]. apply some_inj in St. unfold s_complete in St.
    destruct (s_queue d) as [|w q] eqn:Q.
    + injection St as <- <-. apply mv_rest; assumption.
    + unfold s_transmit_start in St. cbn [s_busy s_queue s_tags] in St. rewrite B in St. cbn [assert_ rbind] in St.
      destruct (find_tag w _); [|discriminate]. cbn in St. injection St as <- <-. apply mv_next; assumption.
Qed.

Lemma i_moves : forall d tr o d' ev, t_inv dur d tr -> i_step fits dur d o = Some (Ok (d', ev)) ->
  t_inv dur d' (tr ++ ev) /\ moves dur d o ev d'.
Proof.
  intros d tr o d' ev Ti St. split.
  { pose proof (i_step_inv dur fits d tr o Ti) as S. rewrite St in S. eapply serial_inv; eauto. }
  pose proof (t_shape dur d tr Ti) as Sh. destruct o as [t u p|]; cbn [i_step] in St.
  - change ((s_now d <=? t) && forallb (fun c => t <=? c_end c) (s_pending d)) with (on_time d t) in St.
    destruct (on_time d t) eqn:T; [|discriminate]. apply some_inj in St. unfold i_send in St. destruct (fits (s_queue d) u); [destruct (s_busy d) eqn:B|].
    + injection St as <- <-. apply mv_wait; assumption.
    + destruct Sh as [(_ & P & Q)|[B' _]]; [|congruence]. rewrite Q, P in St. cbn in St. injection St as <- <-. apply mv_go; assumption.
    + injection St as <- <-. apply mv_refuse; assumption.
  - destruct Sh as [(B & P & Q)|[B [c P]]]; rewrite P in *; [discriminate|]. apply some_inj in St. unfold i_complete in St.
    destruct (s_queue d) as [|w q] eqn:Q; [|cbn in St]; injection St as <- <-; [apply mv_rest|apply mv_next]; assumption.
Qed.

Lemma s_tagged : forall d o d' ev u, s_step fits dur d o = Some (Ok (d', ev)) -> find_tag u (s_tags d') <> None ->
  find_tag u (s_tags d) <> None \/ exists t p, o = SSend t u p.
Proof.
  assert (TS : forall x y e, s_transmit_start dur x = Ok (y, e) -> s_tags y = s_tags x).
  { intros x y e H. unfold s_transmit_start in H. destruct (s_busy x); cbn in H; try discriminate.
    destruct (s_queue x); try discriminate. destruct (find_tag z (s_tags x)); try discriminate. injection H as <- <-. reflexivity. }
  intros d o d' ev u St T. destruct o as [t v p|]; cbn [s_step] in St.
  - destruct (_ && _) in St; [|discriminate]. apply some_inj in St. unfold s_send in St.
    destruct (find_tag v (s_tags d)) eqn:F; [discriminate|].
    assert (G : s_tags d' = (v, u16 p) :: s_tags d).
    { destruct (fits _ v); [destruct (s_busy d)|].
      - injection St as <- _. reflexivity.
      - destruct (s_transmit_start dur _) as [[d2 e2]| | |] eqn:X; try discriminate. cbn in St. injection St as <- _. apply TS in X. exact X.
      - injection St as <- _. reflexivity. }
    rewrite G, find_tag_cons in T. destruct (Z.eqb_spec v u) as [->|]; [right; eauto|left; exact T].
  - destruct (s_pending d) as [|c l]; [discriminate|]. apply some_inj in St. left. unfold s_complete in St.
    assert (G : s_tags d' = remove_tag (c_uid c) (s_tags d)).
    { destruct (s_queue d); [injection St as <- _; reflexivity|]. apply TS in St. exact St. }
    rewrite G in T. destruct (Z.eq_dec u (c_uid c)) as [->|N]; [rewrite find_remove_same in T; congruence|].
    rewrite find_remove_other in T by exact N. exact T.
Qed.

Lemma s_safe : forall d tr o r, d_inv dur d tr -> s_step fits dur d o = Some r ->
  (forall t u p, o = SSend t u p -> find_tag u (s_tags d) = None) -> exists x, r = Ok x.
Proof.
  intros d tr o r I St Fr. pose proof (d_step dur dur_pos fits d tr o I) as S. rewrite St in S. destruct r as [[d' ev]| | |]; [eauto| | |].
  - destruct S as (t & u & p & E & N). exfalso. apply N. eapply Fr; exact E.
  - destruct S.
  - destruct S.
Qed.

Lemma i_safe : forall d tr o r, t_inv dur d tr -> i_step fits dur d o = Some r -> exists x, r = Ok x.
Proof.
  intros d tr o r I St. pose proof (i_step_inv dur fits d tr o I) as S. rewrite St in S. destruct r as [[d' ev]| | |]; try contradiction. eauto.
Qed.

Lemma s_some_send : forall d t u p, on_time d t = true -> s_step fits dur d (SSend t u p) <> None.
Proof. intros d t u p H. cbn [s_step]. unfold on_time in H. rewrite H. discriminate. Qed.
Lemma i_some_send : forall d t u p, on_time d t = true -> i_step fits dur d (SSend t u p) <> None.
Proof. intros d t u p H. cbn [i_step]. unfold on_time in H. rewrite H. discriminate. Qed.
Lemma s_some_done : forall d c, s_pending d = [c] -> s_step fits dur d SComplete <> None.
Proof. intros d c H. cbn [s_step]. rewrite H. discriminate. Qed.
Lemma i_some_done : forall d c, s_pending d = [c] -> i_step fits dur d SComplete <> None.
Proof. intros d c H. cbn [i_step]. rewrite H. discriminate. Qed.
End Devices.
