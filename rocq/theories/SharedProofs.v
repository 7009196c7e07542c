(** Proofs about several applications of one Poisson helper. *)
From Coq Require Import ZArith QArith List Lia Bool Arith Sorted Permutation.
From Verif Require Import Base HelpersModel TrafficModel TrafficSpec TrafficProofs SharedModel SharedSpec.
Import ListNotations.
Open Scope Z_scope.

Lemma leaves_ext : forall g g' st k, (forall i, (i <= k)%nat -> g i = g' i) -> leaves g st k = leaves g' st k.
Proof. intros g g' st. induction k as [|k IH]; intros H; cbn [leaves]; [rewrite H by lia; reflexivity|]. rewrite IH, (H (Datatypes.S k)); [reflexivity|lia|intros; apply H; lia]. Qed.
Lemma departures_ext : forall g g' st k, (forall i, (i < k)%nat -> g i = g' i) -> departures g st k = departures g' st k.
Proof. intros g g' st k H. unfold departures. apply map_ext_in. intros i Hi. apply in_seq in Hi. apply leaves_ext. intros j Hj. apply H. lia. Qed.

Section One.
Context (ns_of : Q -> Z) (bits_of : Z -> Z -> Z) (R : reads ns_of) (B : counts bits_of) (packet max start : Z).
Hypothesis Hp : 0 < packet < 2 ^ 29.
Hypothesis Hm : 0 <= max /\ max + packet <= 2 ^ 64.

Lemma phase_ext : forall d d' n s, (forall i, (i < oo_offs s)%nat -> ns_of (d i) = ns_of (d' i)) ->
  phase ns_of packet max start d n s -> phase ns_of packet max start d' n s.
Proof.
  clear B R Hp Hm bits_of. intros d d' n s H P.
  assert (Lv : forall k, (k < oo_offs s)%nat -> leaves (fun i => ns_of (d i)) start k = leaves (fun i => ns_of (d' i)) start k) by (intros k Hk; apply leaves_ext; intros i Hi; apply H; lia).
  assert (Dp : forall k, (k <= oo_offs s)%nat -> departures (fun i => ns_of (d i)) start k = departures (fun i => ns_of (d' i)) start k) by (intros k Hk; apply departures_ext; intros i Hi; apply H; lia).
  destruct P as [(k & Hn & W & O)|[(k & Hn & W & O)|[(k & Hn & W & O)|(k & Hn & W & O & N)]]].
  - left. exists k. split; [exact Hn|]. split; [|exact O]. destruct W as (now & la & u & ons & E & W1 & W2). assert (Of : oo_offs s = Datatypes.S k) by (rewrite E; reflexivity).
    exists now, la, u, ons. rewrite <- Lv, <- Dp by lia. split; [exact E|]. split; [rewrite <- H by lia; exact W1|]. intros X. rewrite <- Lv by lia. exact (W2 X).
  - right; left. exists k. split; [exact Hn|]. split; [|exact O]. destruct W as (u & u' & w & ons & E & L). assert (Of : oo_offs s = Datatypes.S k) by (rewrite E; reflexivity).
    exists u, u', w, ons. rewrite <- Lv, <- Dp by lia. split; [exact E|exact L].
  - right; right; left. exists k. split; [exact Hn|]. split; [|exact O]. destruct W as (u & u' & w & ons & E & L). assert (Of : oo_offs s = Datatypes.S k) by (rewrite E; reflexivity).
    exists u, u', w, ons. rewrite <- Lv, <- Dp by lia. split; [exact E|exact L].
  - right; right; right. exists k. split; [exact Hn|]. split; [|tauto]. destruct W as (A1 & A2 & A3 & A4 & A5). unfold done_at. rewrite <- Lv, <- Dp by lia. tauto.
Qed.

Lemma phase_step : forall d n s, phase ns_of packet max start d n s ->
  (exists s', app_step ns_of bits_of (poisson_cfg packet max d) s = Ok (Some s') /\ phase ns_of packet max start d (Datatypes.S n) s' /\ (oo_offs s' = oo_offs s \/ oo_offs s' = Datatypes.S (oo_offs s))) \/
  app_step ns_of bits_of (poisson_cfg packet max d) s = Ok None.
Proof.
  intros d n s P. destruct P as [(k & Hn & W & O)|[(k & Hn & W & O)|[(k & Hn & W & O)|(k & Hn & W & O & N)]]].
  - left. destruct (wait_step ns_of bits_of R packet max start d Hp Hm k s W) as (s' & F & D); [intros Hk; apply (open_down ns_of packet max d Hp Hm); replace (Datatypes.S (k - 1)) with k by lia; exact O|exact O|].
    exists s'. split; [exact F|]. split; [right; left; exists k; split; [lia|tauto]|]. left. destruct W as (? & ? & ? & ? & -> & _). destruct D as (? & ? & ? & ? & -> & _). reflexivity.
  - left. destruct (due_step ns_of bits_of R packet max start d Hp Hm k s W O) as (s' & F & D & D'). exists s'. split; [exact F|]. destruct (open_dec packet max Hm (Datatypes.S k)) as [X|X].
    + split; [right; right; left; exists k; split; [lia|tauto]|]. left. destruct W as (? & ? & ? & ? & -> & _). destruct (D X) as (? & ? & ? & ? & -> & _). reflexivity.
    + split; [right; right; right; exists k; split; [lia|tauto]|]. left. destruct W as (? & ? & ? & ? & -> & _). destruct (D' X) as (_ & _ & _ & _ & ->). reflexivity.
  - left. destruct (gone_step ns_of bits_of B packet max start d k s W) as (s' & F & D). exists s'. split; [exact F|]. split; [left; exists (Datatypes.S k); split; [lia|tauto]|]. right.
    destruct W as (? & ? & ? & ? & -> & _). destruct D as (? & ? & ? & ? & -> & _). reflexivity.
  - right. destruct W as (A & A' & _). unfold app_step. rewrite A, A'. reflexivity.
Qed.

Lemma step_ext : forall d d' s, d (oo_offs s) = d' (oo_offs s) ->
  app_step ns_of bits_of (poisson_cfg packet max d) s = app_step ns_of bits_of (poisson_cfg packet max d') s.
Proof.
  intros d d' s H. destruct s as [now tot res la snd tog uid ons offs sent]. cbn [oo_offs] in H.
  assert (T : forall b t, run_toggle ns_of bits_of (poisson_cfg packet max d) (mkApp now tot res la snd tog uid ons offs sent) b t = run_toggle ns_of bits_of (poisson_cfg packet max d') (mkApp now tot res la snd tog uid ons offs sent) b t).
  { intros [] t; [reflexivity|]. unfold run_toggle, stop_sending, schedule_start, cancel_events, poisson_cfg. cbn. rewrite H. reflexivity. }
  unfold app_step. cbn [oo_send oo_toggle]. destruct snd as [[t u]|], tog as [[[b t'] u']|]; rewrite ?T; reflexivity.
Qed.
End One.

Section All.
Context (ns_of : Q -> Z) (bits_of : Z -> Z -> Z) (R : reads ns_of) (B : counts bits_of) (packet : Z) (draws : nat -> Q).
Hypothesis Hp : 0 < packet < 2 ^ 29.

Definition own (p : list nat) : nat -> Q := fun n => draws (nth n p O).
Definition app_ok (a : shared_app) (p : list nat) : Prop :=
  (0 <= sa_max a /\ sa_max a + packet <= 2 ^ 64) /\ StronglySorted lt p /\
  match sa_state a with
  | Waiting => p = []
  | Running s => oo_offs s = length p /\ exists n, phase ns_of packet (sa_max a) (sa_start a) (own p) n s
  end.
Definition shared_ok (f : shared) (parts : list (list nat)) : Prop :=
  Forall2 app_ok (sh_apps f) parts /\ Permutation (concat parts) (seq 0 (sh_drawn f)).

Lemma forall2_at : forall A C (P : A -> C -> Prop) l m i a, Forall2 P l m -> nth_error l i = Some a -> exists c, nth_error m i = Some c /\ P a c.
Proof. intros A C P l m i a F. revert i. induction F as [|x y l m Q F IH]; intros [|i] E; try discriminate E; cbn in *; [injection E as ->; eauto|apply IH, E]. Qed.
Lemma forall2_replace : forall A C (P : A -> C -> Prop) l m i a c, Forall2 P l m -> P a c -> Forall2 P (replace l i a) (replace m i c).
Proof. intros A C P l m i a c F Q. revert i. induction F as [|x y l m X F IH]; intros [|i]; cbn; constructor; auto. Qed.
Lemma concat_replace : forall (parts : list (list nat)) i p x, nth_error parts i = Some p -> Permutation (concat (replace parts i (p ++ x))) (concat parts ++ x).
Proof.
  induction parts as [|q parts IH]; intros [|i] p x E; try discriminate E; cbn in *.
  - injection E as ->. rewrite <- app_assoc, <- app_assoc. apply Permutation_app_head, Permutation_app_comm.
  - rewrite <- app_assoc. apply Permutation_app_head, IH, E.
Qed.
Lemma replace_same : forall A (l : list A) i a, nth_error l i = Some a -> replace l i a = l.
Proof. induction l as [|x l IH]; intros [|i] a E; try discriminate E; cbn in *; [injection E as ->; reflexivity|rewrite IH by exact E; reflexivity]. Qed.
Lemma sorted_snoc : forall p g, StronglySorted lt p -> (forall x, In x p -> (x < g)%nat) -> StronglySorted lt (p ++ [g]).
Proof.
  induction p as [|x p IH]; intros g S H; cbn; [repeat constructor|]. inversion S as [|? ? S' F]; subst. constructor; [apply IH; [exact S'|intros y Hy; apply H; right; exact Hy]|].
  apply Forall_app. split; [exact F|]. constructor; [apply H; left; reflexivity|constructor].
Qed.
Lemma in_part : forall (parts : list (list nat)) i p x, nth_error parts i = Some p -> In x p -> In x (concat parts).
Proof. intros parts i p x E H. apply in_concat. exists p. split; [eapply nth_error_In; exact E|exact H]. Qed.

Lemma shared_one : forall f parts i, shared_ok f parts -> exists f' parts', shared_step ns_of bits_of packet draws f i = Ok f' /\ shared_ok f' parts' /\
  map sa_max (sh_apps f') = map sa_max (sh_apps f) /\ map sa_start (sh_apps f') = map sa_start (sh_apps f).
Proof.
  intros f parts i [F P]. unfold shared_step. destruct (nth_error (sh_apps f) i) as [a|] eqn:Ea; [|exists f, parts; repeat split; assumption].
  destruct (forall2_at _ _ _ _ _ _ _ F Ea) as (p & Ep & (M & S & Q)).
  assert (Lt : forall x, In x p -> (x < sh_drawn f)%nat).
  { intros x Hx. pose proof (Permutation_in _ P (in_part _ _ _ _ Ep Hx)) as I. apply in_seq in I. lia. }
  assert (Keep : forall s, map sa_max (replace (sh_apps f) i (mkSharedApp (sa_max a) (sa_start a) s)) = map sa_max (sh_apps f) /\ map sa_start (replace (sh_apps f) i (mkSharedApp (sa_max a) (sa_start a) s)) = map sa_start (sh_apps f)).
  { intros s. clear - Ea. revert i Ea. induction (sh_apps f) as [|x l IH]; intros [|i] E; try discriminate E; cbn in *; [injection E as ->; split; reflexivity|]. destruct (IH i E) as [-> ->]. split; reflexivity. }
  set (g := sh_drawn f) in *.
  assert (Draw : forall s, oo_offs s = Datatypes.S (length p) -> (exists n, phase ns_of packet (sa_max a) (sa_start a) (own (p ++ [g])) n s) ->
    shared_ok (mkShared (g + 1) (replace (sh_apps f) i (mkSharedApp (sa_max a) (sa_start a) (Running s)))) (replace parts i (p ++ [g]))).
  { intros s Hs Hn. split; cbn [sh_apps sh_drawn].
    - apply forall2_replace; [exact F|]. split; [exact M|]. split; [apply sorted_snoc; assumption|]. cbn [sa_state sa_max sa_start]. split; [rewrite app_length; cbn; lia|exact Hn].
    - eapply Permutation_trans; [apply concat_replace, Ep|]. rewrite Nat.add_1_r, seq_S. apply Permutation_app_tail. exact P. }
  unfold shared_event. fold g. destruct (sa_state a) as [|s] eqn:St.
  - cbn [rbind]. subst p. eexists _, _. split; [reflexivity|]. cbn [sh_apps]. split; [|apply Keep]. unfold taken. rewrite St. cbn [sa_state start_application cancel_events schedule_start oo_offs Nat.sub].
    apply Draw; [reflexivity|]. exists O. left. exists O. split; [reflexivity|]. split; [apply (poisson_begin ns_of bits_of packet (sa_max a) (sa_start a) (own ([] ++ [g])))|]. unfold open_at. lia.
  - destruct Q as [Ho [n Ph]].
    assert (Ph' : phase ns_of packet (sa_max a) (sa_start a) (own (p ++ [g])) n s).
    { apply (phase_ext ns_of packet (sa_max a) (sa_start a) (own p)); [|exact Ph]. intros j Hj. unfold own. rewrite app_nth1 by lia. reflexivity. }
    rewrite (step_ext ns_of bits_of packet (sa_max a) (fun _ => draws g) (own (p ++ [g]))) by (unfold own; rewrite Ho, app_nth2, Nat.sub_diag by lia; reflexivity).
    destruct (phase_step ns_of bits_of R B packet (sa_max a) (sa_start a) Hp M _ _ _ Ph') as [(s' & E & P2 & Of)|E]; rewrite E; cbn [rbind].
    + cbv zeta. unfold taken. rewrite St. cbn [sa_state]. destruct Of as [Of|Of].
      * replace (oo_offs s' - oo_offs s)%nat with O by lia. eexists _, parts. split; [reflexivity|]. cbn [sh_apps]. split; [|apply Keep]. split; cbn [sh_apps sh_drawn]; [|rewrite Nat.add_0_r; exact P].
        rewrite <- (replace_same _ parts i p Ep). apply forall2_replace; [exact F|]. split; [exact M|]. split; [exact S|]. cbn [sa_state sa_max sa_start]. split; [lia|]. exists (Datatypes.S n).
        apply (phase_ext ns_of packet (sa_max a) (sa_start a) (own (p ++ [g]))); [|exact P2]. intros j Hj. unfold own. rewrite app_nth1 by lia. reflexivity.
      * replace (oo_offs s' - oo_offs s)%nat with 1%nat by lia. eexists _, _. split; [reflexivity|]. cbn [sh_apps]. split; [|apply Keep]. apply Draw; [lia|eauto].
    + exists f, parts. split; [reflexivity|]. split; [split; assumption|split; reflexivity].
Qed.

Lemma shared_all : forall l f parts, shared_ok f parts -> exists f' parts', shared_run ns_of bits_of packet draws f l = Ok f' /\ shared_ok f' parts' /\
  map sa_max (sh_apps f') = map sa_max (sh_apps f) /\ map sa_start (sh_apps f') = map sa_start (sh_apps f).
Proof.
  induction l as [|i l IH]; intros f parts H; cbn [shared_run]; [exists f, parts; repeat split; apply H|].
  destruct (shared_one f parts i H) as (f1 & p1 & E & H1 & A & C). rewrite E. cbn [rbind]. destruct (IH f1 p1 H1) as (f2 & p2 & E2 & H2 & A2 & C2). exists f2, p2. split; [exact E2|]. split; [exact H2|]. split; congruence.
Qed.

Lemma installed_ok : forall apps, Forall (fun p => 0 <= fst p /\ fst p + packet <= 2 ^ 64) apps -> shared_ok (installed apps) (map (fun _ => []) apps).
Proof.
  intros apps H. split; cbn [installed sh_apps sh_drawn].
  - induction H as [|x l X H IH]; cbn; constructor; [|exact IH]. split; [exact X|]. split; [constructor|reflexivity].
  - induction apps as [|x l IH]; cbn; [constructor|]. apply IH. inversion H; assumption.
Qed.

Hypothesis Hd : forall i, (0 <= draws i)%Q.
Lemma app_traffic : forall a p, app_ok a p -> own_traffic ns_of packet draws a p.
Proof.
  intros a p (M & S & Q). unfold own_traffic. destruct (sa_state a) as [|s]; [exact Q|]. destruct Q as (Ho & n & P). cbv zeta. set (gaps := fun n => ns_of (draws (nth n p O))).
  assert (G : forall i, 0 <= gaps i) by (intros i; apply (ns_nonneg ns_of R), Hd).
  assert (Mono : forall i k, (i <= k)%nat -> leaves gaps (sa_start a) i <= leaves gaps (sa_start a) k).
  { intros i k H. induction H; [lia|]. cbn [leaves]. specialize (G (Datatypes.S m)). lia. }
  assert (Room : forall i k, (i <= k)%nat -> room (sa_max a) packet k -> room (sa_max a) packet i) by (unfold room; intros i k H [X|X]; [tauto|right; nia]).
  destruct P as [(k & Hn & W & O)|[(k & Hn & W & O)|[(k & Hn & W & O)|(k & Hn & W & O & N)]]].
  - exists k. destruct W as (now & la & u & ons & -> & W1 & W2). cbn [oo_offs oo_sent oo_now oo_send oo_toggle] in *. split; [lia|]. split; [reflexivity|].
    split; [intros i Hi; split; [apply (Room i k ltac:(lia) O)|rewrite W2 by lia; apply Mono; lia]|]. split; [intros [_ X]; discriminate X|].
    intros _. split; [exact O|]. intros _. specialize (G k). change (now + gaps k = leaves gaps (sa_start a) k) in W1. lia.
  - exists k. destruct W as (u & u' & w & ons & -> & L). cbn [oo_offs oo_sent oo_now oo_send oo_toggle] in *. split; [lia|]. split; [reflexivity|].
    split; [intros i Hi; split; [apply (Room i k ltac:(lia) O)|apply Mono; lia]|]. split; [intros [_ X]; discriminate X|]. intros _. split; [exact O|]. intros _. apply Z.le_refl.
  - exists (Datatypes.S k). destruct W as (u & u' & w & ons & -> & L). cbn [oo_offs oo_sent oo_now oo_send oo_toggle] in *. split; [lia|]. split; [reflexivity|].
    split; [intros i Hi; split; [apply (Room i (Datatypes.S k) ltac:(lia) O)|apply Mono; lia]|]. split; [intros [_ X]; discriminate X|]. intros _. split; [exact O|]. intros X. lia.
  - exists (Datatypes.S k). destruct W as (A1 & A2 & A3 & A4 & A5). split; [lia|]. split; [exact A3|]. rewrite A4.
    split; [intros i Hi; split; [apply (Room i k ltac:(lia) O)|apply Mono; lia]|]. split; [intros _; exact N|]. intros X. exfalso. apply X. tauto.
Qed.
End All.
