From Coq Require Import ZArith QArith List Lia Bool Arith.
From Verif Require Import Base SatAddrModel SatAddrProofs ConstellationModel ConstellationSpec ConstellationProofs LaunchModel LaunchSpec
  LaunchProofs ChannelModel IslModel SetupModel SetupSpec.
Import ListNotations.
Open Scope nat_scope.

(** * Lists *)

Lemma places_app : forall B (f : B -> bool) a b from, places f from (a ++ b) = places f from a ++ places f (from + length a) b.
Proof.
  induction a as [|x a IH]; intros b from; cbn [places app length]; [rewrite Nat.add_0_r; reflexivity|].
  rewrite IH, app_assoc. do 2 f_equal. lia.
Qed.

Lemma places_length : forall B (f : B -> bool) l from, length (places f from l) = length (filter f l).
Proof. induction l as [|x l IH]; intros from; cbn [places filter]; [reflexivity|]. rewrite app_length, IH. destruct (f x); reflexivity. Qed.

Lemma places_in : forall B (f : B -> bool) l from k, In k (places f from l) <-> exists i x, k = from + i /\ nth_error l i = Some x /\ f x = true.
Proof.
  induction l as [|y l IH]; intros from k; cbn [places].
  - split; [intros []|]. intros (i & x & _ & H & _). destruct i; discriminate.
  - rewrite in_app_iff, IH. split.
    + intros [H|(i & x & -> & H & F)].
      * destruct (f y) eqn:F; [|destruct H]. destruct H as [<-|[]]. exists 0, y. split; [lia|]. split; [reflexivity|exact F].
      * exists (S i), x. split; [lia|]. split; assumption.
    + intros (i & x & -> & H & F). destruct i as [|i]; cbn in H.
      * injection H as ->. left. rewrite F. left. lia.
      * right. exists i, x. split; [lia|]. split; assumption.
Qed.

Lemma places_NoDup : forall B (f : B -> bool) l from, NoDup (places f from l).
Proof.
  induction l as [|x l IH]; intros from; cbn [places]; [constructor|]. destruct (f x); [|apply IH]. cbn [app]. constructor; [|apply IH].
  intros H. apply places_in in H. destruct H as (i & y & E & _). lia.
Qed.

Lemma places_rank : forall B (f : B -> bool) l from i x, nth_error l i = Some x -> f x = true ->
  nth_error (places f from l) (rank f i l) = Some (from + i).
Proof.
  intros B f. induction l as [|y l IH]; intros from [|i] x H F; cbn in H; try discriminate.
  - injection H as ->. unfold rank. cbn [places firstn filter length]. rewrite F. cbn. f_equal. lia.
  - unfold rank in *. cbn [places firstn filter]. specialize (IH (S from) i x H F). destruct (f y); cbn [app length nth_error]; rewrite IH; f_equal; lia.
Qed.

Lemma rank_app : forall B (f : B -> bool) a b k, k <= length a -> rank f k (a ++ b) = rank f k a.
Proof. intros. unfold rank. rewrite firstn_app. replace (k - length a) with 0 by lia. cbn [firstn]. rewrite app_nil_r. reflexivity. Qed.

Lemma rank_all : forall B (f : B -> bool) a b, rank f (length a) (a ++ b) = length (filter f a).
Proof. intros. rewrite rank_app by lia. unfold rank. rewrite firstn_all. reflexivity. Qed.

Lemma rank_lt : forall B (f : B -> bool) l i x, nth_error l i = Some x -> f x = true -> rank f i l < length (filter f l).
Proof.
  intros B f l i x H F. rewrite <- (places_length B f l 0). apply nth_error_Some. rewrite (places_rank B f l 0 i x H F). discriminate.
Qed.

Lemma nth_error_snoc : forall B (l : list B) x k y, nth_error (l ++ [x]) k = Some y -> (k < length l /\ nth_error l k = Some y) \/ (k = length l /\ y = x).
Proof.
  intros B l x k y H. destruct (Nat.lt_ge_cases k (length l)) as [L|L].
  - rewrite nth_error_app1 in H by exact L. auto.
  - rewrite nth_error_app2 in H by exact L. destruct (k - length l) as [|m] eqn:E; [|destruct m; discriminate].
    cbn in H. injection H as <-. right. split; [lia|reflexivity].
Qed.

Lemma filter_snoc : forall B (f : B -> bool) l x, filter f (l ++ [x]) = filter f l ++ (if f x then [x] else []).
Proof. intros. rewrite filter_app. cbn. destruct (f x); reflexivity. Qed.

(** * Marks *)

Lemma marks_app : forall pos a b seen, marks pos seen (a ++ b) = marks pos seen a ++ marks pos (rev (map cl_node a) ++ seen) b.
Proof.
  induction a as [|c a IH]; intros b seen; cbn [marks app map rev]; [reflexivity|]. rewrite IH, <- app_assoc. reflexivity.
Qed.

Lemma marks_length : forall pos cs seen, length (marks pos seen cs) = length cs.
Proof. induction cs as [|c cs IH]; intros seen; cbn [marks length]; [reflexivity|]. rewrite IH. reflexivity. Qed.

Lemma marks_snd : forall pos cs seen, map snd (marks pos seen cs) = cs.
Proof. induction cs as [|c cs IH]; intros seen; cbn [marks map snd]; [reflexivity|]. rewrite IH. reflexivity. Qed.

(** Whether a node was called before. *)
Definition called (n : nat) (cs : list call) : bool := existsb (Nat.eqb n) (map cl_node cs).

Lemma existsb_rev : forall B (f : B -> bool) l, existsb f (rev l) = existsb f l.
Proof.
  intros. apply eq_true_iff_eq. rewrite !existsb_exists. split; intros (x & H & F); exists x; (split; [|exact F]); apply in_rev; [|rewrite rev_involutive]; exact H.
Qed.

Definition mk (pos : nat -> bool) (cs : list call) : list (bool * call) := marks pos [] cs.

Lemma mk_snoc : forall pos cs c, mk pos (cs ++ [c]) = mk pos cs ++ [(negb (pos (cl_node c)) && negb (called (cl_node c) cs), c)].
Proof. intros. unfold mk. rewrite marks_app. cbn [marks]. rewrite app_nil_r, existsb_rev. reflexivity. Qed.

Lemma mk_length : forall pos cs, length (mk pos cs) = length cs.
Proof. intros. apply marks_length. Qed.

Lemma called_snoc : forall n cs c, called n (cs ++ [c]) = called n cs || (n =? cl_node c).
Proof. intros. unfold called. rewrite map_app, existsb_app. cbn. rewrite orb_false_r. reflexivity. Qed.

Lemma called_in : forall n cs, called n cs = true <-> exists c, In c cs /\ cl_node c = n.
Proof.
  intros. unfold called. rewrite existsb_exists. split.
  - intros (m & H & E). apply in_map_iff in H. destruct H as (c & <- & H). apply Nat.eqb_eq in E. exists c. auto.
  - intros (c & H & <-). exists (cl_node c). split; [apply in_map; exact H|apply Nat.eqb_refl].
Qed.

Lemma upd_same : forall B (f : nat -> B) n v, upd f n v n = v.
Proof. intros. unfold upd. rewrite Nat.eqb_refl. reflexivity. Qed.
Lemma upd_other : forall B (f : nat -> B) n v m, m <> n -> upd f n v m = f m.
Proof. intros. unfold upd. apply Nat.eqb_neq in H. rewrite H. reflexivity. Qed.

Lemma gs_of_app : forall a b, gs_of (a ++ b) = gs_of a ++ gs_of b.
Proof. intros. unfold gs_of. apply flat_map_app. Qed.
Lemma isl_of_app : forall a b, isl_of (a ++ b) = isl_of a ++ isl_of b.
Proof. intros. unfold isl_of. apply flat_map_app. Qed.

Section Inv.
Variable debug : bool.
Variable ho : host.
Variable plans : nat -> plan.
Hypothesis plans_ok : forall h, 0 < pl_P (plans h) /\ 0 < pl_S (plans h).
Variable b : before.
Variable first : Z.

Notation world := (world Q).

Notation device_of := (device_of ho plans first).

Definition launched_by (h : nat) (cs : list call) : list nat := places (launch_of h) 0 (mk (b_pos b) cs).

Record inv (cs : list call) (cons : list (option nat)) (ty : nat) (links : list isl_device) (w : world) : Prop := mkInv {
  i_len : length (sw_devs w) = length cs;
  i_devs : forall k x, nth_error (mk (b_pos b) cs) k = Some x -> nth_error (sw_devs w) k = Some (device_of (mk (b_pos b) cs) k x);
  i_help : forall h, let p := plans h in linv ho (pl_id p) (pl_P p) (pl_S p) (pl_F p) (pl_alt p) (pl_inc p) (launched_by h cs) (sw_helpers w h);
  i_chans : length (sw_chans w) = length cons;
  i_chan : forall c, nth_error (sw_chans w) c = option_map (fun o => mkSC o (places (ground_at c) 0 (mk (b_pos b) cs))) (nth_error cons c);
  i_known : forall c i, In c cs -> cl_chan c = Some i -> i < length cons;
  i_pos : forall n, sn_pos (sw_nodes w n) = b_pos b n || called n cs;
  i_orbit : forall n, sn_orbit (sw_nodes w n) = b_orbit b n || (negb (b_pos b n) && called n cs);
  i_track : forall n, sn_trackers (sw_nodes w n) = b_trackers b n ++ map (fun x => cl_type (snd x)) (filter (ground_on n) (mk (b_pos b) cs));
  i_gs : forall n, gs_of (sn_devs (sw_nodes w n)) = places (on n) 0 (mk (b_pos b) cs);
  i_isl : forall n, isl_of (sn_devs (sw_nodes w n)) = places (fun d => isl_node d =? n) 0 links;
  i_first : forall n, hd_error (sn_devs (sw_nodes w n)) = option_map RGs (hd_error (places (on n) 0 (mk (b_pos b) cs)));
  i_links : sw_links w = links;
  i_ty : sw_type w = ty;
  i_mac : sw_mac w = (first + Z.of_nat (length (filter is_ground (mk (b_pos b) cs))))%Z }.

Notation start := (start plans b first).

Lemma start_inv : forall t0, inv [] [] t0 [] (start t0).
Proof.
  intros t0. unfold SetupSpec.start. constructor; cbn; intros; auto; try (destruct k; discriminate).
  - apply linv_new; apply plans_ok.
  - destruct c; reflexivity.
  - contradiction.
  - rewrite orb_false_r. reflexivity.
  - rewrite andb_false_r, orb_false_r. reflexivity.
  - rewrite app_nil_r. reflexivity.
  - lia.
Qed.

(** What the calls so far must satisfy. *)
Definition good (cs : list call) : Prop :=
  (forall x, In x (mk (b_pos b) cs) -> fst x = false -> cl_chan (snd x) <> None) /\
  (forall n, NoDup (map (fun x => cl_type (snd x)) (filter (ground_on n) (mk (b_pos b) cs)))) /\
  (forall n x, In x (mk (b_pos b) cs) -> ground_on n x = true -> ~ In (cl_type (snd x)) (b_trackers b n)) /\
  (forall h, length (launched_by h cs) <= pl_P (plans h) * pl_S (plans h)).

Lemma launched_snoc : forall h cs c, launched_by h (cs ++ [c]) =
  launched_by h cs ++ (if launch_of h (negb (b_pos b (cl_node c)) && negb (called (cl_node c) cs), c) then [length cs] else []).
Proof. intros. unfold launched_by. rewrite mk_snoc, places_app. cbn [places]. rewrite app_nil_r, mk_length. reflexivity. Qed.

Lemma good_nil : good [].
Proof. repeat split; try (intros; contradiction). - intros. constructor. - intros. apply Nat.le_0_l. Qed.

Lemma NoDup_app_l : forall B (l m : list B), NoDup (l ++ m) -> NoDup l.
Proof. induction l as [|x l IH]; intros m H; [constructor|]. inversion H; subst. constructor; [|eapply IH; eauto]. intros X. apply H2. apply in_or_app. auto. Qed.

Lemma good_prefix : forall a c, good (a ++ c) -> good a.
Proof.
  intros a c (H1 & H2 & H3 & H4). unfold launched_by, mk in *. rewrite marks_app in H1, H2, H3. repeat split.
  - intros x X. apply H1. apply in_or_app. auto.
  - intros n. specialize (H2 n). rewrite filter_app, map_app in H2. eapply NoDup_app_l. exact H2.
  - intros n x X. apply H3. apply in_or_app. auto.
  - intros h. specialize (H4 h). rewrite marks_app, places_app, app_length in H4. unfold launched_by, mk. lia.
Qed.

(** One more call: whether it may be made. *)
Definition may (cs : list call) (c : call) : Prop :=
  if negb (b_pos b (cl_node c)) && negb (called (cl_node c) cs) then length (launched_by (cl_helper c) cs) < pl_P (plans (cl_helper c)) * pl_S (plans (cl_helper c))
  else cl_chan c <> None /\ ~ In (cl_type c) (b_trackers b (cl_node c)) /\
       ~ In (cl_type c) (map (fun x => cl_type (snd x)) (filter (ground_on (cl_node c)) (mk (b_pos b) cs))).

Lemma NoDup_snoc : forall B (l : list B) x, NoDup (l ++ [x]) <-> NoDup l /\ ~ In x l.
Proof.
  intros. split.
  - intros H. apply NoDup_remove in H. rewrite app_nil_r in H. exact H.
  - intros [N H]. apply NoDup_Add with (a := x) (l := l); [|auto]. rewrite <- (app_nil_r l) at 1. apply Add_app.
Qed.

Lemma good_snoc : forall cs c, good (cs ++ [c]) <-> good cs /\ may cs c.
Proof.
  intros cs c. split.
  - intros G. split; [eapply good_prefix; exact G|]. destruct G as (H1 & H2 & H3 & H4). rewrite mk_snoc in H1, H2, H3. unfold may.
    set (m := negb (b_pos b (cl_node c)) && negb (called (cl_node c) cs)) in *. destruct m eqn:M.
    + specialize (H4 (cl_helper c)). rewrite launched_snoc in H4. fold m in H4. rewrite M in H4. unfold launch_of in H4. cbn [fst snd] in H4.
      rewrite Nat.eqb_refl, app_length in H4. cbn in H4. lia.
    + split; [apply (H1 (false, c)); [apply in_or_app; right; left; reflexivity|reflexivity]|].
      assert (Gon : ground_on (cl_node c) (false, c) = true) by (unfold ground_on, is_ground, on; cbn [fst snd negb]; rewrite Nat.eqb_refl; reflexivity).
      split; [apply (H3 (cl_node c) (false, c)); [apply in_or_app; right; left; reflexivity|exact Gon]|].
      specialize (H2 (cl_node c)). rewrite filter_snoc, Gon, map_app in H2. apply NoDup_snoc in H2. apply H2.
  - intros [(H1 & H2 & H3 & H4) M]. unfold may in M. unfold good. rewrite mk_snoc.
    set (m := negb (b_pos b (cl_node c)) && negb (called (cl_node c) cs)) in *. repeat split.
    + intros x X F. apply in_app_or in X. destruct X as [X|[<-|[]]]; [auto|]. cbn [fst snd] in *. rewrite F in M. apply M.
    + intros n. rewrite filter_snoc, map_app. destruct (ground_on n (m, c)) eqn:E; [|cbn; rewrite app_nil_r; apply H2].
      unfold ground_on, is_ground, on in E. cbn [fst snd] in E. apply andb_prop in E. destruct E as [E1 E2]. destruct m; [discriminate|].
      apply Nat.eqb_eq in E2. subst n. apply NoDup_snoc. split; [apply H2|apply M].
    + intros n x X F. apply in_app_or in X. destruct X as [X|[<-|[]]]; [apply H3; auto|].
      unfold ground_on, is_ground, on in F. cbn [fst snd] in *. apply andb_prop in F. destruct F as [E1 E2]. destruct m; [discriminate|].
      apply Nat.eqb_eq in E2. subst n. apply M.
    + intros h. rewrite launched_snoc. fold m. unfold launch_of. cbn [fst snd]. rewrite app_length. specialize (H4 h).
      destruct m; cbn [andb]; [|cbn; lia]. destruct (Nat.eqb_spec (cl_helper c) h) as [E|E]; [|cbn; lia]. subst h. cbn. lia.
Qed.

Lemma existsb_in : forall t l, existsb (Nat.eqb t) l = true <-> In t l.
Proof.
  intros. rewrite existsb_exists. split; [intros (x & H & E); apply Nat.eqb_eq in E; subst; exact H|]. intros H. exists t. rewrite Nat.eqb_refl. auto.
Qed.

Lemma device_of_app : forall l x k y, k < length l -> device_of (l ++ [x]) k y = device_of l k y.
Proof. intros. unfold SetupSpec.device_of. rewrite !rank_app by lia. reflexivity. Qed.

(** * One call *)
Lemma one_ok : forall cs cons ty links w n c h, inv cs cons ty links w -> (forall i, c = Some i -> i < length cons) ->
  may cs (mkCall n c h ty) -> exists w', install_one rational debug ho w n c h = Ok w' /\ inv (cs ++ [mkCall n c h ty]) cons ty links w'.
Proof.
  intros cs cons ty links w n c h I K M. unfold may in M. cbn [cl_node cl_chan cl_helper cl_type] in M.
  unfold install_one. rewrite (i_pos _ _ _ _ _ I n). rewrite <- negb_orb in M.
  set (cl := mkCall n c h ty) in *.
  assert (Mk : mk (b_pos b) (cs ++ [cl]) = mk (b_pos b) cs ++ [(negb (b_pos b n || called n cs), cl)]).
  { rewrite mk_snoc. unfold cl. cbn [cl_node]. rewrite negb_orb. reflexivity. }
  assert (Lk : forall h0, launched_by h0 (cs ++ [cl]) = launched_by h0 cs ++ (if launch_of h0 (negb (b_pos b n || called n cs), cl) then [length cs] else [])).
  { intros. rewrite launched_snoc. unfold cl at 1 2. cbn [cl_node]. rewrite <- negb_orb. reflexivity. }
  assert (Kn : forall c0 i, In c0 (cs ++ [cl]) -> cl_chan c0 = Some i -> i < length cons).
  { intros c0 i X E. apply in_app_or in X. destruct X as [X|[<-|[]]]; [exact (i_known _ _ _ _ _ I _ _ X E)|apply K; exact E]. }
  assert (On : forall m, on m (negb (b_pos b n || called n cs), cl) = (n =? m)) by reflexivity.
  assert (Gs : forall m, places (on m) 0 (mk (b_pos b) cs ++ [(negb (b_pos b n || called n cs), cl)]) = places (on m) 0 (mk (b_pos b) cs) ++ (if n =? m then [length cs] else [])).
  { intros m. rewrite places_app. cbn [places]. rewrite app_nil_r, On, mk_length. reflexivity. }
  assert (Hd : forall m (l : list dev_ref) p, hd_error l = option_map RGs (hd_error p) -> hd_error (l ++ (if n =? m then [RGs (length cs)] else [])) = option_map RGs (hd_error (p ++ (if n =? m then [length cs] else [])))).
  { intros m l p H. destruct l as [|x l]; destruct p as [|y p]; try discriminate H; cbn [app].
    - destruct (n =? m); reflexivity.
    - exact H. }
  destruct (b_pos b n || called n cs) eqn:P; cbn [negb] in *.
  - (* a ground station *)
    destruct M as (Mc & Mt & Mu).
    rewrite (i_ty _ _ _ _ _ I), (i_track _ _ _ _ _ I n), existsb_app.
    destruct (existsb (Nat.eqb ty) (b_trackers b n)) eqn:X1; [exfalso; apply Mt; apply existsb_in; exact X1|].
    destruct (existsb (Nat.eqb ty) (map (fun x => cl_type (snd x)) (filter (ground_on n) (mk (b_pos b) cs)))) eqn:X2; [exfalso; apply Mu; apply existsb_in; exact X2|].
    cbn [orb negb abort_unless rbind]. destruct c as [i|]; [|congruence]. specialize (K i eq_refl).
    rewrite (i_chan _ _ _ _ _ I i). destruct (nth_error cons i) as [o|] eqn:Ei; [|apply nth_error_None in Ei; lia].
    cbn [option_map]. eexists. split; [reflexivity|]. rewrite (i_len _ _ _ _ _ I).
    constructor; cbn [sw_helpers sw_chans sw_nodes sw_devs sw_links sw_type sw_mac sc_con sc_ground].
    + rewrite !app_length, (i_len _ _ _ _ _ I). reflexivity.
    + rewrite Mk. intros k x X. apply nth_error_snoc in X. rewrite mk_length in X. destruct X as [[Lx X]|[-> ->]].
      * rewrite nth_error_app1 by (rewrite (i_len _ _ _ _ _ I); exact Lx). rewrite device_of_app by (rewrite mk_length; exact Lx). apply (i_devs _ _ _ _ _ I). exact X.
      * rewrite nth_error_app2 by (rewrite (i_len _ _ _ _ _ I); lia). rewrite (i_len _ _ _ _ _ I), Nat.sub_diag. cbn [nth_error].
        unfold SetupSpec.device_of. cbn [fst snd cl_node cl_chan cl]. rewrite <- (mk_length (b_pos b) cs), rank_all, (i_mac _ _ _ _ _ I). reflexivity.
    + intros h0. rewrite Lk. unfold launch_of. cbn [fst andb]. rewrite app_nil_r. apply (i_help _ _ _ _ _ I).
    + rewrite set_nth_length. apply (i_chans _ _ _ _ _ I).
    + intros c0. rewrite Mk, places_app. cbn [places]. rewrite app_nil_r, mk_length.
      unfold ground_at at 3, is_ground. cbn [fst snd negb andb]. change (cl_chan cl) with (Some i).
      destruct (Nat.eq_dec i c0) as [<-|Ne].
      * rewrite Nat.eqb_refl. rewrite set_nth_same by (rewrite (i_chans _ _ _ _ _ I); exact K). rewrite Ei. reflexivity.
      * rewrite set_nth_other by exact Ne. apply Nat.eqb_neq in Ne. rewrite Ne, app_nil_r. apply (i_chan _ _ _ _ _ I).
    + exact Kn.
    + intros m. rewrite called_snoc. change (cl_node cl) with n. destruct (Nat.eq_dec m n) as [->|Ne].
      * rewrite upd_same, Nat.eqb_refl, !orb_true_r. reflexivity.
      * rewrite upd_other by exact Ne. rewrite (i_pos _ _ _ _ _ I m). apply Nat.eqb_neq in Ne. rewrite Ne, orb_false_r. reflexivity.
    + intros m. rewrite called_snoc. change (cl_node cl) with n. destruct (Nat.eq_dec m n) as [->|Ne].
      * rewrite upd_same, Nat.eqb_refl. cbn [sn_orbit]. rewrite (i_orbit _ _ _ _ _ I n). destruct (b_pos b n); cbn in P |- *; [reflexivity|]. rewrite P. reflexivity.
      * rewrite upd_other by exact Ne. rewrite (i_orbit _ _ _ _ _ I m). apply Nat.eqb_neq in Ne. rewrite Ne, orb_false_r. reflexivity.
    + intros m. rewrite Mk, filter_snoc, map_app. unfold ground_on at 3, is_ground. cbn [fst negb andb]. rewrite On. destruct (Nat.eq_dec m n) as [->|Ne].
      * rewrite upd_same, Nat.eqb_refl. cbn [sn_trackers]. rewrite <- app_assoc. reflexivity.
      * rewrite upd_other by exact Ne. rewrite (i_track _ _ _ _ _ I m). destruct (Nat.eqb_spec n m); [congruence|]. cbn [map]. rewrite app_nil_r. reflexivity.
    + intros m. rewrite Mk, Gs. destruct (Nat.eq_dec m n) as [->|Ne].
      * rewrite upd_same, Nat.eqb_refl. cbn [sn_devs]. rewrite gs_of_app, (i_gs _ _ _ _ _ I n). reflexivity.
      * rewrite upd_other by exact Ne. rewrite (i_gs _ _ _ _ _ I m). destruct (Nat.eqb_spec n m); [congruence|]. rewrite app_nil_r. reflexivity.
    + intros m. destruct (Nat.eq_dec m n) as [->|Ne].
      * rewrite upd_same. cbn [sn_devs]. rewrite isl_of_app. cbn. rewrite app_nil_r. apply (i_isl _ _ _ _ _ I).
      * rewrite upd_other by exact Ne. apply (i_isl _ _ _ _ _ I).
    + intros m. rewrite Mk, Gs. pose proof (Hd m _ _ (i_first _ _ _ _ _ I m)) as H. destruct (Nat.eq_dec m n) as [->|Ne].
      * rewrite upd_same. rewrite Nat.eqb_refl in *. exact H.
      * rewrite upd_other by exact Ne. destruct (Nat.eqb_spec n m); [congruence|]. rewrite !app_nil_r in *. exact H.
    + apply (i_links _ _ _ _ _ I).
    + reflexivity.
    + rewrite Mk, filter_snoc, app_length, (i_mac _ _ _ _ _ I). cbn. lia.
  - (* a satellite *)
    destruct (plans_ok h) as [HP HS]. pose proof (i_help _ _ _ _ _ I h) as Ih. cbv zeta in Ih.
    rewrite (i_len _ _ _ _ _ I).
    destruct (linv_step debug ho _ _ _ _ _ _ _ _ (length cs) HP HS Ih M) as (h' & a & o & El & Ea & _ & _ & _ & _ & I').
    rewrite El. cbn [rbind]. eexists. split; [reflexivity|].
    constructor; cbn [sw_helpers sw_chans sw_nodes sw_devs sw_links sw_type sw_mac sc_con sc_ground].
    + rewrite !app_length, (i_len _ _ _ _ _ I). reflexivity.
    + rewrite Mk. intros k x X. apply nth_error_snoc in X. rewrite mk_length in X. destruct X as [[Lx X]|[-> ->]].
      * rewrite nth_error_app1 by (rewrite (i_len _ _ _ _ _ I); exact Lx). rewrite device_of_app by (rewrite mk_length; exact Lx). apply (i_devs _ _ _ _ _ I). exact X.
      * rewrite nth_error_app2 by (rewrite (i_len _ _ _ _ _ I); lia). rewrite (i_len _ _ _ _ _ I), Nat.sub_diag. cbn [nth_error].
        unfold SetupSpec.device_of. cbn [fst snd cl_node cl_chan cl_helper cl]. rewrite <- (mk_length (b_pos b) cs), rank_all, Ea.
        unfold launched_by. rewrite places_length. reflexivity.
    + intros h0. rewrite Lk. unfold launch_of. cbn [fst snd andb]. change (cl_helper cl) with h. destruct (Nat.eqb_spec h h0) as [->|Ne].
      * rewrite upd_same. exact I'.
      * rewrite upd_other by congruence. rewrite app_nil_r. apply (i_help _ _ _ _ _ I).
    + apply (i_chans _ _ _ _ _ I).
    + intros c0. rewrite Mk, places_app. cbn [places]. unfold ground_at at 2, is_ground. cbn [fst snd negb andb app]. rewrite app_nil_r. apply (i_chan _ _ _ _ _ I).
    + exact Kn.
    + intros m. rewrite called_snoc. change (cl_node cl) with n. destruct (Nat.eq_dec m n) as [->|Ne].
      * rewrite upd_same, Nat.eqb_refl, !orb_true_r. reflexivity.
      * rewrite upd_other by exact Ne. rewrite (i_pos _ _ _ _ _ I m). apply Nat.eqb_neq in Ne. rewrite Ne, orb_false_r. reflexivity.
    + intros m. rewrite called_snoc. change (cl_node cl) with n. apply orb_false_iff in P. destruct P as [P1 P2]. destruct (Nat.eq_dec m n) as [->|Ne].
      * rewrite upd_same, Nat.eqb_refl. cbn [sn_orbit]. rewrite P1, P2. cbn. rewrite orb_true_r. reflexivity.
      * rewrite upd_other by exact Ne. rewrite (i_orbit _ _ _ _ _ I m). apply Nat.eqb_neq in Ne. rewrite Ne, orb_false_r. reflexivity.
    + intros m. rewrite Mk, filter_snoc, map_app. unfold ground_on at 2, is_ground. cbn [fst negb andb map]. rewrite app_nil_r. destruct (Nat.eq_dec m n) as [->|Ne].
      * rewrite upd_same. apply (i_track _ _ _ _ _ I).
      * rewrite upd_other by exact Ne. apply (i_track _ _ _ _ _ I).
    + intros m. rewrite Mk, Gs. destruct (Nat.eq_dec m n) as [->|Ne].
      * rewrite upd_same, Nat.eqb_refl. cbn [sn_devs]. rewrite gs_of_app, (i_gs _ _ _ _ _ I n). reflexivity.
      * rewrite upd_other by exact Ne. rewrite (i_gs _ _ _ _ _ I m). destruct (Nat.eqb_spec n m); [congruence|]. rewrite app_nil_r. reflexivity.
    + intros m. destruct (Nat.eq_dec m n) as [->|Ne].
      * rewrite upd_same. cbn [sn_devs]. rewrite isl_of_app. cbn. rewrite app_nil_r. apply (i_isl _ _ _ _ _ I).
      * rewrite upd_other by exact Ne. apply (i_isl _ _ _ _ _ I).
    + intros m. rewrite Mk, Gs. pose proof (Hd m _ _ (i_first _ _ _ _ _ I m)) as H. destruct (Nat.eq_dec m n) as [->|Ne].
      * rewrite upd_same. rewrite Nat.eqb_refl in *. exact H.
      * rewrite upd_other by exact Ne. destruct (Nat.eqb_spec n m); [congruence|]. rewrite !app_nil_r in *. exact H.
    + apply (i_links _ _ _ _ _ I).
    + apply (i_ty _ _ _ _ _ I).
    + rewrite Mk, filter_snoc, app_length, (i_mac _ _ _ _ _ I). cbn. lia.
Qed.

Lemma one_only : forall cs cons ty links w n c h w', inv cs cons ty links w -> good cs -> install_one rational debug ho w n c h = Ok w' -> may cs (mkCall n c h ty).
Proof.
  intros cs cons ty links w n c h w' I G E. unfold install_one in E. rewrite (i_pos _ _ _ _ _ I n) in E. unfold may. cbn [cl_node cl_chan cl_helper cl_type].
  rewrite <- negb_orb. destruct (b_pos b n || called n cs) eqn:P; cbn [negb] in *.
  - rewrite (i_ty _ _ _ _ _ I), (i_track _ _ _ _ _ I n), existsb_app in E.
    destruct (existsb (Nat.eqb ty) (b_trackers b n)) eqn:X1; [discriminate E|].
    destruct (existsb (Nat.eqb ty) (map (fun x => cl_type (snd x)) (filter (ground_on n) (mk (b_pos b) cs)))) eqn:X2; [discriminate E|].
    split; [intros ->; discriminate E|]. split; intros X; apply existsb_in in X; congruence.
  - destruct (Nat.lt_ge_cases (length (launched_by h cs)) (pl_P (plans h) * pl_S (plans h))) as [L|L]; [exact L|exfalso].
    destruct (plans_ok h) as [HP HS]. pose proof (i_help _ _ _ _ _ I h) as Ih. cbv zeta in Ih. destruct G as (_ & _ & _ & G4). specialize (G4 h).
    rewrite (overlaunch debug ho _ _ _ _ _ _ _ _ (length (sw_devs w)) HP HS Ih ltac:(lia)) in E. destruct debug; discriminate E.
Qed.
End Inv.
