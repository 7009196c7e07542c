(** * C71: the life of faces *)
From Coq Require Import ZArith List Bool Arith Lia.
From Verif Require Import Base LifeModel LifeSpec.
Import ListNotations.
Open Scope Z_scope.

Section Life.
Variable ndn : Z.
Variable kinds : nat -> dkind.
Variable start : nat -> Z.

Definition sig (n : node) : list (nat * tstate) := map (fun t => (t_dev t, t_state t)) (n_faces n).
Definition on (d : nat) (hs : list (nat * nat)) : list nat := map snd (filter (fun x => (fst x =? d)%nat) hs).
Definition is_gone (n : node) (f : nat) : Prop := exists d, nth_error (sig n) f = Some (d, TGone).

Lemma access_cases : forall n f, (f < length (sig n))%nat ->
  (is_gone n f /\ access n f = UB) \/ (~ is_gone n f /\ exists t, nth_error (n_faces n) f = Some t /\ access n f = Ok t).
Proof.
  intros n f L. unfold sig in L. rewrite map_length in L. unfold is_gone, access, sig.
  destruct (nth_error (n_faces n) f) as [t|] eqn:E.
  - rewrite (map_nth_error _ _ _ E). destruct (t_state t) eqn:St.
    + right; split; [intros (d & A); congruence|eauto].
    + right; split; [intros (d & A); congruence|eauto].
    + left; split; [eauto|reflexivity].
  - apply nth_error_None in E. lia.
Qed.

Lemma hand_over_spec : forall n d b hs, (forall x, In x hs -> (snd x < length (sig n))%nat) ->
  ((exists f, In f (on d hs) /\ is_gone n f) /\ hand_over n hs d b = UB) \/
  ((forall f, In f (on d hs) -> ~ is_gone n f) /\ hand_over n hs d b = Ok (map (fun f => EGot f b) (on d hs))).
Proof.
  intros n d b; induction hs as [|[e f] l IH]; intros L; cbn [hand_over].
  - right; split; [intros f []|reflexivity].
  - assert (L' : forall x, In x l -> (snd x < length (sig n))%nat) by (intros; apply L; right; assumption).
    unfold on in *; cbn [filter fst map snd]. destruct (e =? d)%nat eqn:E; [|exact (IH L')].
    cbn [map snd]. destruct (access_cases n f (L (e, f) (or_introl eq_refl))) as [(G & A)|(G & t & _ & A)].
    + left. split; [exists f; split; [left; reflexivity|exact G]|]. unfold transport_receive. rewrite A. reflexivity.
    + unfold transport_receive. rewrite A. cbn [rbind]. destruct (IH L') as [((g & I & Gg) & ->)|(K & ->)].
      * left. split; [exists g; split; [right; exact I|exact Gg]|reflexivity].
      * right. split; [intros g [<-|I]; [exact G|exact (K g I)]|reflexivity].
Qed.

Lemma sig_update : forall n f t a, nth_error (n_faces n) f = Some t ->
  sig (with_faces n (set_nth f (mkT (t_dev t) (t_state t) a) (n_faces n))) = sig n.
Proof.
  intros n f t a E. unfold sig, with_faces; cbn [n_faces]. revert f t E.
  induction (n_faces n) as [|x l IH]; intros [|f] t E; cbn in E |- *; try discriminate.
  - injection E as ->. reflexivity.
  - f_equal. exact (IH f t E).
Qed.

Lemma is_gone_sig : forall n m f, sig n = sig m -> is_gone n f -> is_gone m f.
Proof. unfold is_gone. intros n m f <- H. exact H. Qed.

Lemma signal_spec : forall d a ss n, (forall x, In x ss -> (snd x < length (sig n))%nat) ->
  ((exists f, In f (on d ss) /\ is_gone n f) /\ signal n ss d a = UB) \/
  ((forall f, In f (on d ss) -> ~ is_gone n f) /\ exists n2, signal n ss d a = Ok (n2, map (fun f => EUri f a) (on d ss)) /\
     sig n2 = sig n /\ n_handlers n2 = n_handlers n /\ n_slots n2 = n_slots n /\ n_remote n2 = n_remote n).
Proof.
  intros d a; induction ss as [|[e f] l IH]; intros n L; cbn [signal].
  - right; split; [intros f []|exists n; repeat split; reflexivity].
  - assert (L' : forall x, In x l -> (snd x < length (sig n))%nat) by (intros; apply L; right; assumption).
    unfold on in *; cbn [filter fst map snd]. destruct (e =? d)%nat eqn:E; [|exact (IH n L')].
    cbn [map snd]. unfold update_uri. destruct (access_cases n f (L (e, f) (or_introl eq_refl))) as [(G & A)|(G & t & Nt & A)].
    + left. split; [exists f; split; [left; reflexivity|exact G]|]. rewrite A. reflexivity.
    + rewrite A. cbn [rbind]. set (n1 := with_faces n _). assert (Sg : sig n1 = sig n) by (apply sig_update; exact Nt).
      destruct (IH n1) as [((g & I & Gg) & ->)|(K & n2 & -> & S2 & H2 & T2 & R2)].
      * rewrite Sg. exact L'.
      * left. split; [exists g; split; [right; exact I|exact (is_gone_sig _ _ _ Sg Gg)]|reflexivity].
      * right. split; [intros g [<-|I]; [exact G|intros Gg; exact (K g I (is_gone_sig _ _ _ (eq_sym Sg) Gg))]|].
        exists n2. rewrite S2, H2, T2, R2. repeat split; try reflexivity. exact Sg.
Qed.

(** The node after a history. *)
Definition numbered (l : list nat) : list (nat * nat) := combine l (seq 0 (length l)).
Definition state_of (h : list lop) (f : nat) (s : tstate) : Prop :=
  match s with
  | TUp => ~ In (LClose f) h /\ ~ In (LGone f) h
  | TClosed => In (LClose f) h /\ ~ In (LGone f) h
  | TGone => In (LClose f) h /\ In (LGone f) h
  end.
Record inv (h : list lop) (n : node) : Prop := mkInv {
  i_made : map t_dev (n_faces n) = made h;
  i_state : forall f t, nth_error (n_faces n) f = Some t -> state_of h f (t_state t);
  i_used : forall f, In (LClose f) h \/ In (LGone f) h -> (f < length (made h))%nat;
  i_remote : forall d, n_remote n d = aimed_at start h d;
  i_hand : n_handlers n = numbered (made h);
  i_slots : n_slots n = filter (fun x => match kinds (fst x) with GroundDev => true | _ => false end) (numbered (made h)) }.

Lemma made_app : forall h o, made (h ++ [o]) = made h ++ match o with LNew _ d => [d] | _ => [] end.
Proof. intros. unfold made. rewrite flat_map_app. cbn. rewrite app_nil_r. reflexivity. Qed.

Lemma numbered_snoc : forall l d, numbered (l ++ [d]) = numbered l ++ [(d, length l)].
Proof.
  intros l d. unfold numbered.
  assert (G : forall k, combine (l ++ [d]) (seq k (length (l ++ [d]))) = combine l (seq k (length l)) ++ [(d, (k + length l)%nat)]).
  { induction l as [|x l IH]; intros k; cbn; [rewrite Nat.add_0_r; reflexivity|]. f_equal. rewrite IH. rewrite Nat.add_succ_r. reflexivity. }
  exact (G 0%nat).
Qed.

Lemma numbered_from : forall d l k, map snd (filter (fun x => (fst x =? d)%nat) (combine l (seq k (length l)))) = places d k l.
Proof.
  intros d; induction l as [|x l IH]; intros k; cbn [length seq combine filter fst places map]; [reflexivity|].
  destruct (x =? d)%nat; cbn [map snd]; rewrite IH; reflexivity.
Qed.
Lemma on_numbered : forall d h, on d (numbered (made h)) = faces_on d h.
Proof. intros. apply numbered_from. Qed.

Lemma on_filter : forall d (q : nat -> bool) hs, q d = true -> on d (filter (fun x => q (fst x)) hs) = on d hs.
Proof.
  intros d q hs Q. unfold on. f_equal. induction hs as [|[e f] l IH]; cbn [filter fst]; [reflexivity|].
  destruct (q e) eqn:Qe; cbn [filter fst]; destruct (e =? d)%nat eqn:E; rewrite IH; try reflexivity.
  apply Nat.eqb_eq in E. congruence.
Qed.

Lemma places_in : forall d l k f, In f (places d k l) <-> (k <= f)%nat /\ nth_error l (f - k) = Some d.
Proof.
  intros d; induction l as [|x l IH]; intros k f; cbn [places].
  - split; [intros []|intros (_ & A); destruct (f - k)%nat; discriminate].
  - assert (St : In f (places d (S k) l) <-> (k < f)%nat /\ nth_error (x :: l) (f - k) = Some d).
    { rewrite IH. split; intros (A & B); (split; [lia|]); replace (f - k)%nat with (S (f - S k)) in * by lia; exact B. }
    destruct (x =? d)%nat eqn:E.
    + apply Nat.eqb_eq in E. cbn [In]. rewrite St. split.
      * intros [<-|(A & B)]; [split; [lia|]; rewrite Nat.sub_diag; cbn; congruence|split; [lia|exact B]].
      * intros (A & B). destruct (Nat.eq_dec k f); [left; assumption|right; split; [lia|exact B]].
    + apply Nat.eqb_neq in E. rewrite St. split; intros (A & B); (split; [|exact B]); [lia|].
      destruct (Nat.eq_dec k f) as [<-|]; [rewrite Nat.sub_diag in B; cbn in B; congruence|lia].
Qed.
Lemma faces_on_in : forall d h f, In f (faces_on d h) <-> is_face h f d.
Proof.
  intros. unfold faces_on, is_face. rewrite places_in, Nat.sub_0_r. split; [intros (_ & A); exact A|intros A; split; [lia|exact A]].
Qed.

Lemma sig_len : forall h n, inv h n -> length (sig n) = length (made h).
Proof. intros h n I. rewrite <- (i_made h n I). unfold sig. rewrite !map_length. reflexivity. Qed.

Lemma numbered_lt : forall l x, In x (numbered l) -> (snd x < length l)%nat.
Proof. intros l [d f] I. apply in_combine_r in I. apply in_seq in I. cbn. lia. Qed.

Lemma gone_iff : forall h n f, inv h n -> (f < length (made h))%nat -> (is_gone n f <-> In (LGone f) h).
Proof.
  intros h n f I L. unfold is_gone, sig. destruct (nth_error (n_faces n) f) as [t|] eqn:E.
  - rewrite (map_nth_error _ _ _ E). pose proof (i_state h n I f t E) as St. destruct (t_state t); cbn in St.
    + split; [intros (d & A); congruence|tauto].
    + split; [intros (d & A); congruence|tauto].
    + split; [tauto|eauto].
  - apply nth_error_None in E. rewrite <- (i_made h n I), map_length in L. lia.
Qed.

Lemma stale_iff : forall h n d, inv h n -> (stale h d <-> exists f, In f (faces_on d h) /\ is_gone n f).
Proof.
  intros h n d I. unfold stale. split; intros (f & A & B); exists f.
  - split; [apply faces_on_in; exact A|]. apply (gone_iff h n f I); [|exact B]. apply nth_error_Some. congruence.
  - apply faces_on_in in A. split; [exact A|]. apply (gone_iff h n f I); [|exact B]. apply nth_error_Some. congruence.
Qed.

Lemma aimed_snoc : forall h o d, aimed_at start (h ++ [o]) d =
  match o with LTarget e b => if (e =? d)%nat then b else aimed_at start h d | _ => aimed_at start h d end.
Proof. intros. unfold aimed_at. rewrite fold_left_app. cbn. destruct o; reflexivity. Qed.

Lemma in_snoc : forall (h : list lop) o x, In x (h ++ [o]) <-> In x h \/ x = o.
Proof. intros. rewrite in_app_iff. cbn. intuition. Qed.

(** Operations that only add to the history. *)
Lemma inv_idle : forall h n o, inv h n -> (forall f, o <> LClose f) -> (forall f, o <> LGone f) ->
  (forall k d, o <> LNew k d) -> (forall d a, o <> LTarget d a) -> inv (h ++ [o]) n.
Proof.
  intros h n o [A B U C D E] N1 N2 N3 N4.
  assert (M : made (h ++ [o]) = made h) by (rewrite made_app; destruct o; try apply app_nil_r; exfalso; eapply N3; reflexivity).
  constructor; rewrite ?M; try assumption.
  - intros f t F. specialize (B f t F). pose proof (N1 f). pose proof (N2 f).
    destruct (t_state t); cbn in B |- *; rewrite !in_snoc; intuition.
  - intros f. rewrite !in_snoc. intros K. apply U. destruct K as [[K|K]|[K|K]]; auto; exfalso; [apply (N1 f)|apply (N2 f)]; auto.
  - intros d. rewrite aimed_snoc, C. destruct o; try reflexivity. exfalso. eapply N4. reflexivity.
Qed.

(** Changing the state of one face. *)
Lemma inv_state : forall h n o f t s, inv h n -> nth_error (n_faces n) f = Some t ->
  (o = LClose f \/ o = LGone f) -> state_of (h ++ [o]) f s ->
  inv (h ++ [o]) (with_faces n (set_nth f (mkT (t_dev t) s (t_remote t)) (n_faces n))).
Proof.
  intros h n o f t s [A B U C D E] F Ho Hs.
  assert (L : (f < length (n_faces n))%nat) by (apply nth_error_Some; congruence).
  assert (M : made (h ++ [o]) = made h) by (rewrite made_app; destruct Ho; subst o; apply app_nil_r).
  constructor; rewrite ?M; cbn [with_faces n_faces n_remote n_handlers n_slots]; try assumption.
  - rewrite <- A. clear -F. revert f F. induction (n_faces n) as [|x l IH]; intros [|f] F; cbn in F |- *; try discriminate.
    + injection F as ->. reflexivity.
    + f_equal. exact (IH f F).
  - intros g u G. destruct (Nat.eq_dec f g) as [<-|Ne].
    + rewrite set_nth_same in G by exact L. injection G as <-. exact Hs.
    + rewrite set_nth_other in G by exact Ne. specialize (B g u G).
      assert (K : forall x, (x = LClose g \/ x = LGone g) -> (In x (h ++ [o]) <-> In x h)).
      { intros x Hx. rewrite in_snoc. split; [intros [K|K]; [exact K|exfalso; destruct Hx, Ho; congruence]|tauto]. }
      destruct (t_state u); cbn in B |- *; rewrite !K by tauto; exact B.
  - intros g K. rewrite !in_snoc in K. rewrite <- A, map_length.
    assert (K' : (In (LClose g) h \/ In (LGone g) h) \/ g = f) by (destruct Ho; subst o; intuition congruence).
    destruct K' as [K'| ->]; [specialize (U g K'); rewrite <- A, map_length in U; exact U|exact L].
  - intros d. rewrite aimed_snoc, C. destruct Ho; subst o; reflexivity.
Qed.

Lemma life_step : forall h n o, inv h n -> proper kinds h o ->
  (strikes ndn start h o /\ l_step ndn kinds n o = Some UB) \/
  (~ strikes ndn start h o /\ exists n2 ev, l_step ndn kinds n o = Some (Ok (n2, ev)) /\ inv (h ++ [o]) n2 /\ seen_after ndn start h o ev).
Proof.
  intros h n o I P. pose proof (sig_len h n I) as Sl. destruct o as [k d|f|f|f b|d p b|d a]; cbn [l_step strikes seen_after proper] in *.
  - right. split; [tauto|]. destruct P as (Kd & Ko). unfold transport_new.
    assert (E : same_kind k (kinds d) = true) by (rewrite Kd; destruct k; try reflexivity; congruence).
    rewrite E. cbn [rbind]. eexists _, _. split; [reflexivity|split; [|reflexivity]].
    destruct I as [A B U C D Sl']. assert (L : length (n_faces n) = length (made h)) by (rewrite <- A, map_length; reflexivity).
    constructor; cbn [n_faces n_remote n_handlers n_slots]; rewrite ?made_app.
    + rewrite map_app, A. reflexivity.
    + intros f t F. destruct (Nat.lt_ge_cases f (length (n_faces n))) as [Lf|Lf].
      * rewrite nth_error_app1 in F by exact Lf. specialize (B f t F).
        destruct (t_state t); cbn in B |- *; rewrite !in_snoc; intuition congruence.
      * rewrite nth_error_app2 in F by exact Lf. destruct (f - length (n_faces n))%nat as [|q] eqn:Q; [|destruct q; discriminate].
        injection F as <-. cbn [t_state state_of]. rewrite !in_snoc.
        split; intros [K|K]; try discriminate; [specialize (U f (or_introl K))|specialize (U f (or_intror K))]; lia.
    + intros f K. rewrite !in_snoc in K. rewrite app_length. cbn [length].
      assert (K' : In (LClose f) h \/ In (LGone f) h) by intuition congruence. specialize (U f K'). lia.
    + intros e. rewrite aimed_snoc. apply C.
    + rewrite D, numbered_snoc, L. reflexivity.
    + rewrite numbered_snoc, filter_app, Sl', L. cbn [filter fst]. rewrite Kd. destruct k; [reflexivity| |]; rewrite app_nil_r; reflexivity.
  - right. split; [tauto|]. destruct P as (L & Ng).
    destruct (nth_error (n_faces n) f) as [t|] eqn:F.
    2:{ apply nth_error_None in F. rewrite <- (i_made h n I), map_length in L. lia. }
    pose proof (i_state h n I f t F) as St. unfold set_state. rewrite F.
    assert (R : state_of (h ++ [LClose f]) f TClosed).
    { cbn. rewrite !in_snoc. split; [tauto|]. intros [K|K]; [tauto|discriminate]. }
    destruct (t_state t) eqn:E; try (exfalso; cbn in St; tauto);
      (eexists _, _; split; [reflexivity|split; [|reflexivity]]; apply inv_state; auto).
  - right. split; [tauto|]. destruct P as (Cl & Ng). pose proof (i_used h n I f (or_introl Cl)) as L.
    destruct (nth_error (n_faces n) f) as [t|] eqn:F.
    2:{ apply nth_error_None in F. rewrite <- (i_made h n I), map_length in L. lia. }
    pose proof (i_state h n I f t F) as St. unfold set_state. rewrite F.
    destruct (t_state t) eqn:E; try (exfalso; cbn in St; tauto).
    eexists _, _; split; [reflexivity|split; [|reflexivity]]. apply inv_state; auto. cbn. rewrite !in_snoc. tauto.
  - right. split; [tauto|]. destruct P as (L & Ng). unfold transport_send.
    destruct (nth_error (n_faces n) f) as [t|] eqn:F.
    2:{ apply nth_error_None in F. rewrite <- (i_made h n I), map_length in L. lia. }
    pose proof (i_state h n I f t F) as St.
    assert (Id : inv (h ++ [LSend f b]) n) by (apply inv_idle; [exact I|discriminate..]).
    destruct (t_state t) eqn:E; try (exfalso; cbn in St; tauto); cbn [rbind].
    + eexists _, _; split; [reflexivity|split; [exact Id|]]. right. split; [apply St|]. exists (t_dev t). split; [|reflexivity].
      unfold is_face. rewrite <- (i_made h n I). apply map_nth_error. exact F.
    + eexists _, _; split; [reflexivity|split; [exact Id|]]. left. split; [apply St|reflexivity].
  - destruct (Z.eqb_spec p ndn) as [->|Np].
    + destruct (hand_over_spec n d b (n_handlers n)) as [(G & ->)|(G & ->)].
      * rewrite (i_hand h n I), Sl. apply numbered_lt.
      * left. rewrite (i_hand h n I), on_numbered in G. split; [|reflexivity]. split; [reflexivity|]. apply (stale_iff h n d I). exact G.
      * right. rewrite (i_hand h n I), on_numbered in *. split.
        { intros (_ & K). apply (stale_iff h n d I) in K. destruct K as (f & A & B). exact (G f A B). }
        cbn [rbind]. eexists _, _. split; [reflexivity|split; [|reflexivity]]. apply inv_idle; [exact I|discriminate..].
    + right. split; [tauto|]. eexists _, _. split; [reflexivity|split; [|reflexivity]]. apply inv_idle; [exact I|discriminate..].
  - rewrite P. unfold target. rewrite (i_remote h n I). destruct (Z.eqb_spec (aimed_at start h d) a) as [Ea|Na].
    + right. split; [intros (K & _); congruence|]. cbn [rbind]. eexists _, _. split; [reflexivity|split; [|reflexivity]].
      destruct I as [A B U C D E]. assert (M : made (h ++ [LTarget d a]) = made h) by (rewrite made_app; apply app_nil_r).
      constructor; rewrite ?M; cbn [n_faces n_remote n_handlers n_slots]; try assumption.
      * intros f t F. specialize (B f t F). destruct (t_state t); cbn in B |- *; rewrite !in_snoc; intuition congruence.
      * intros f. rewrite !in_snoc. intros K. apply U. intuition congruence.
      * intros e. rewrite aimed_snoc, (Nat.eqb_sym e d). destruct (d =? e)%nat; [reflexivity|apply C].
    + assert (Fs : on d (n_slots n) = faces_on d h).
      { rewrite (i_slots h n I). rewrite (on_filter d (fun e => match kinds e with GroundDev => true | _ => false end)), on_numbered; [reflexivity|].
        rewrite P. reflexivity. }
      destruct (signal_spec d a (n_slots n) n) as [(G & ->)|(G & n2 & -> & S2 & H2 & T2 & R2)].
      * rewrite (i_slots h n I), Sl. intros x Hx. apply filter_In in Hx. apply numbered_lt, Hx.
      * left. rewrite Fs in G. split; [|reflexivity]. split; [congruence|]. apply (stale_iff h n d I). exact G.
      * right. rewrite Fs in G |- *. split.
        { intros (_ & K). apply (stale_iff h n d I) in K. destruct K as (f & A & B). exact (G f A B). }
        cbn [rbind]. eexists _, _. split; [reflexivity|split; [|reflexivity]].
        destruct I as [A B U C D E]. assert (M : made (h ++ [LTarget d a]) = made h) by (rewrite made_app; apply app_nil_r).
        constructor; rewrite ?M; cbn [n_faces n_remote n_handlers n_slots]; rewrite ?H2, ?T2; try assumption.
        { rewrite <- A. change (map t_dev (n_faces n2)) with (map t_dev (n_faces n2)).
          assert (Q : forall l : list transport, map t_dev l = map fst (map (fun t => (t_dev t, t_state t)) l)).
          { intros l. rewrite map_map. reflexivity. }
          rewrite !Q. exact (f_equal (map fst) S2). }
        { intros f t F. assert (F' : nth_error (sig n) f = Some (t_dev t, t_state t)).
          { rewrite <- S2. unfold sig. exact (map_nth_error _ _ _ F). }
          unfold sig in F'. rewrite nth_error_map in F'. destruct (nth_error (n_faces n) f) as [u|] eqn:Fu; [|discriminate].
          injection F' as _ Es. specialize (B f u Fu). rewrite Es in B.
          destruct (t_state t); cbn in B |- *; rewrite !in_snoc; intuition congruence. }
        { intros f. rewrite !in_snoc. intros K. apply U. intuition congruence. }
        { intros e. rewrite aimed_snoc, (Nat.eqb_sym e d), R2. destruct (d =? e)%nat; [reflexivity|apply C]. }
Qed.

Lemma inv_init : inv [] (node_init start).
Proof. constructor; cbn; try reflexivity; try tauto. intros [|f] t F; discriminate. Qed.

Lemma run_from : forall ops h n tr, inv h n -> seen ndn start h tr -> (forall g o r, ops = g ++ o :: r -> proper kinds (h ++ g) o) ->
  (l_run ndn kinds n ops = Some UB /\ exists g o r, ops = g ++ o :: r /\ strikes ndn start (h ++ g) o) \/
  (exists n2 ev, l_run ndn kinds n ops = Some (Ok (n2, ev)) /\ seen ndn start (h ++ ops) (tr ++ ev) /\ inv (h ++ ops) n2 /\
     forall g o r, ops = g ++ o :: r -> ~ strikes ndn start (h ++ g) o).
Proof.
  induction ops as [|o ops IH]; intros h n tr I Sn P; cbn [l_run].
  - right. exists n, []. rewrite !app_nil_r. split; [reflexivity|split; [exact Sn|split; [exact I|]]]. intros [|] ? ? K; discriminate.
  - pose proof (P [] o ops eq_refl) as Po. rewrite app_nil_r in Po.
    destruct (life_step h n o I Po) as [(St & ->)|(St & n1 & e1 & -> & I1 & S1)].
    + left. split; [reflexivity|]. exists [], o, ops. rewrite app_nil_r. auto.
    + destruct (IH (h ++ [o]) n1 (tr ++ e1) I1 (seen_snoc ndn start h tr o e1 Sn S1)) as [(-> & g & q & r & -> & Sq)|(n2 & e2 & -> & S2 & I2 & N2)].
      * intros g q r ->. rewrite <- app_assoc. apply (P (o :: g) q r). reflexivity.
      * left. split; [reflexivity|]. exists (o :: g), q, r. split; [reflexivity|]. rewrite <- app_assoc in Sq. exact Sq.
      * right. exists n2, (e1 ++ e2). rewrite <- !app_assoc in S2. rewrite <- app_assoc in I2. split; [reflexivity|split; [exact S2|split; [exact I2|]]].
        intros [|x g] q r Eq.
        { injection Eq as <- <-. rewrite app_nil_r. exact St. }
        { injection Eq as <- ->. specialize (N2 g q r eq_refl). rewrite <- app_assoc in N2. exact N2. }
Qed.
End Life.

(** What does hold: the run is undefined exactly if a frame of NDN, or a change of the satellite, comes for a device one of
    whose faces was destroyed.  Otherwise every face made on the device gets every frame once, closed or not, and what is
    sent over a face that is not closed goes out on its device. *)
Theorem faces_end_partial : forall ndn kinds start ops, proper_run kinds ops ->
  (l_run ndn kinds (node_init start) ops = Some UB /\ exists h o r, ops = h ++ o :: r /\ strikes ndn start h o) \/
  (exists n tr, l_run ndn kinds (node_init start) ops = Some (Ok (n, tr)) /\ seen ndn start ops tr /\
     forall h o r, ops = h ++ o :: r -> ~ strikes ndn start h o).
Proof.
  intros ndn kinds start ops P.
  destruct (run_from ndn kinds start ops [] (node_init start) [] (inv_init kinds start) (seen_nil _ _) P) as [A|(n & tr & A & B & _ & D)].
  - left. exact A.
  - right. exists n, tr. auto.
Qed.
Print Assumptions faces_end_partial.

(** False on every node with a device for faces: a face that is closed still gets blocks, and a frame that comes after
    it was destroyed uses its memory. *)
Theorem faces_end_refuted : forall ndn kinds start d, kinds d <> OtherDev ->
  ~ faces_end ndn kinds start /\
  (exists n, l_run ndn kinds (node_init start) [LNew (kinds d) d; LClose 0; LFrame d ndn 7] = Some (Ok (n, [EGot 0 7]))) /\
  proper_run kinds [LNew (kinds d) d; LClose 0; LGone 0; LFrame d ndn 7] /\
  l_run ndn kinds (node_init start) [LNew (kinds d) d; LClose 0; LGone 0; LFrame d ndn 7] = Some UB.
Proof.
  intros ndn kinds start d K.
  assert (Pr : proper_run kinds [LNew (kinds d) d; LClose 0; LGone 0; LFrame d ndn 7]).
  { intros h o r E.
    destruct h as [|? h]; [injection E as <- <-; cbn; auto|injection E as <- E].
    destruct h as [|? h]; [injection E as <- <-; cbn; split; [lia|intros [A|[]]; discriminate]|injection E as <- E].
    destruct h as [|? h]; [injection E as <- <-; cbn; split; [auto|intros [A|[A|[]]]; discriminate]|injection E as <- E].
    destruct h as [|? h]; [injection E as <- <-; exact Logic.I|injection E as <- E].
    destruct h; discriminate. }
  assert (U : l_run ndn kinds (node_init start) [LNew (kinds d) d; LClose 0; LGone 0; LFrame d ndn 7] = Some UB).
  { cbn. unfold transport_new, same_kind. destruct (kinds d); try congruence; cbn; rewrite ?Z.eqb_refl, ?Nat.eqb_refl; reflexivity. }
  split; [|split; [|split; [exact Pr|exact U]]].
  - intros F. destruct (F _ Pr) as (n & tr & R & _). congruence.
  - cbn. unfold transport_new, same_kind. destruct (kinds d); try congruence; cbn; rewrite ?Z.eqb_refl, ?Nat.eqb_refl; eexists; reflexivity.
Qed.
Print Assumptions faces_end_refuted.

(** A ground station with one device for faces and another: two faces on device 0; the station is aimed at satellite 9,
    a frame of NDN and one of another protocol come, one face is closed, the other sends. *)
Example faces_end_case :
  let kinds := fun d => match d with O => GroundDev | S O => SatDev | _ => OtherDev end in
  let ops := [LNew GroundDev 0; LNew SatDev 1; LNew GroundDev 0; LTarget 0 9; LFrame 0 34340 5; LFrame 0 2048 6; LTarget 0 9;
              LClose 2; LSend 2 8; LSend 0 8; LSend 1 3; LFrame 1 34340 4; LClose 1; LGone 1; LFrame 0 34340 1] in
  proper_run kinds ops /\
  (match l_run 34340 kinds (node_init (fun _ => 0)) ops with
   | Some (Ok (n, tr)) => tr = [EUri 0 9; EUri 2 9; EGot 0 5; EGot 2 5; ESent 0 8; ESent 1 3; EGot 1 4; EGot 0 1; EGot 2 1]
   | _ => False
   end) /\
  l_run 34340 kinds (node_init (fun _ => 0)) (ops ++ [LFrame 1 2048 2; LFrame 1 34340 2]) = Some UB.
Proof.
  cbv zeta. split; [|split; vm_compute; reflexivity].
  intros h o r E. do 15 (destruct h as [|? h]; [injection E as <- <-; vm_compute;
    repeat split; try discriminate; try lia; try tauto; intuition discriminate|injection E as <- E]).
  destruct h; discriminate.
Qed.
