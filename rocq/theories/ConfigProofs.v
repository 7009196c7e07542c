(** Helpers make what their calls ask for. *)
From Coq Require Import ZArith List Bool Lia String.
From Verif Require Import Base ConfigModel ConfigSpec.
Import ListNotations.
Open Scope string_scope.

Lemma same_decl_eq a b : same_decl a b = true <-> d_owner a = d_owner b /\ d_name a = d_name b.
Proof. unfold same_decl. rewrite andb_true_iff, !String.eqb_eq. tauto. Qed.
Lemma same_decl_refl a : same_decl a a = true.
Proof. apply same_decl_eq. auto. Qed.

Section Proofs.
Variable types : string -> option type.
Variable parse : attr_kind -> string -> option value.
Notation choose := (f_choose types).
Notation option_ := (f_option types parse).
Notation gives := (gives types parse).
Notation said := (said types parse).
Notation ever_given := (ever_given types parse).
Notation sensible := (sensible types parse).
Notation lookup := (lookup_decl types).

Lemma lookup_names ty n d : lookup ty n = Some d <-> names_attr types ty n d.
Proof.
  unfold lookup_decl, names_attr. destruct (types ty) as [t|]; [|split; [discriminate|intros (t & _ & _ & E & _); discriminate]].
  assert (G : forall l, find (fun d => (d_name d =? n)%string) l = Some d <->
              exists l1 l2, l = (l1 ++ d :: l2)%list /\ d_name d = n /\ (forall e, In e l1 -> d_name e <> n)).
  { induction l as [|e l IH]; cbn.
    - split; [discriminate|]. intros ([|] & l2 & E & _); discriminate.
    - destruct (String.eqb_spec (d_name e) n) as [E|E].
      + split.
        * intros H. injection H as <-. exists [], l. cbn. repeat split; auto.
        * intros (l1 & l2 & H & Hn & Ha). destruct l1 as [|x l1]; cbn in H; injection H as -> H; [reflexivity|].
          exfalso. apply (Ha x); [left; auto|]. assumption.
      + rewrite IH. split.
        * intros (l1 & l2 & -> & Hn & Ha). exists (e :: l1), l2. repeat split; auto. intros x [<-|Hx]; auto.
        * intros (l1 & l2 & H & Hn & Ha). destruct l1 as [|x l1]; cbn in H; injection H as -> H; [congruence|].
          exists l1, l2. repeat split; auto. intros y Hy. apply Ha. right. assumption. }
  rewrite G. split.
  - intros (l1 & l2 & H). exists t, l1, l2. tauto.
  - intros (t' & l1 & l2 & E & H). injection E as <-. exists l1, l2. tauto.
Qed.

(** * One factory *)
Definition f_order (f : factory) (o : order) : result factory :=
  match o with Use t => choose f t | Give n v => option_ f (n, v) end.
Fixpoint f_orders (f : factory) (l : list order) : result factory :=
  match l with [] => Ok f | o :: r => do f1 <- f_order f o ; f_orders f1 r end.

Lemma f_orders_app f a b : f_orders f (a ++ b) = (do f1 <- f_orders f a ; f_orders f1 b).
Proof. revert f. induction a as [|o a IH]; intros f; cbn; [reflexivity|]. destruct (f_order f o); cbn; auto. Qed.

Lemma in_use_app t a b : in_use t (a ++ b) = in_use (in_use t a) b.
Proof. revert t. induction a as [|[|] a IH]; intros t; cbn; auto. Qed.

Lemma f_options_orders f l : f_options types parse f l = f_orders f (map (fun o => Give (fst o) (snd o)) l).
Proof. revert f. induction l as [|[n v] l IH]; intros f; [reflexivity|].
  cbn [f_options f_orders map fst snd f_order]. destruct (f_option types parse f (n, v)); cbn; auto.
Qed.

Lemma f_configure_orders f t l : f_configure types parse f t l = f_orders f (Use t :: map (fun o => Give (fst o) (snd o)) l).
Proof. unfold f_configure. cbn. destruct (choose f t); cbn; auto using f_options_orders. Qed.

(** What a factory knows. *)
Definition knows (init : string) (l : list order) (f : factory) : Prop :=
  f_type f = in_use init l /\
  forall d, match find (fun e => same_decl (fst e) d) (f_set f) with
            | Some e => exists i, gives init l i d (snd e) /\ forall j w', (i < j)%nat -> ~ gives init l j d w'
            | None => ~ ever_given init l d
            end.

Lemma gives_app_lt init l o i d w : (i < List.length l)%nat -> gives init (l ++ [o]) i d w <-> gives init l i d w.
Proof.
  intros Hi. unfold ConfigSpec.gives. rewrite nth_error_app1, firstn_app by assumption.
  replace (i - List.length l)%nat with 0%nat by lia. cbn [firstn]. rewrite app_nil_r. tauto.
Qed.
Lemma gives_lt init l i d w : gives init l i d w -> (i < List.length l)%nat.
Proof. intros (n & v & d' & H & _). apply nth_error_Some. congruence. Qed.
Lemma gives_last init l o d w : gives init (l ++ [o]) (List.length l) d w <->
  exists n v d', o = Give n v /\ n <> "" /\ lookup (in_use init l) n = Some d' /\ same_decl d' d = true /\ accepts parse (d_kind d') v = Some w.
Proof.
  unfold ConfigSpec.gives. rewrite nth_error_app2, Nat.sub_diag by lia. cbn [nth_error].
  rewrite firstn_app, Nat.sub_diag, firstn_all. cbn [firstn]. rewrite app_nil_r.
  split; intros (n & v & d' & H).
  - destruct H as (Ho & Hn & Hd & Eo & En & Ha). injection Ho as ->. exists n, v, d'.
    rewrite lookup_names, same_decl_eq. tauto.
  - rewrite lookup_names, same_decl_eq in H. destruct H as (-> & Hn & Hd & (Eo & En) & Ha). exists n, v, d'. repeat (split; auto).
Qed.

Lemma knows_same init l o f : knows init l f -> (forall d w, ~ gives init (l ++ [o]) (List.length l) d w) ->
  forall d, match find (fun e => same_decl (fst e) d) (f_set f) with
            | Some e => exists i, gives init (l ++ [o]) i d (snd e) /\ forall j w', (i < j)%nat -> ~ gives init (l ++ [o]) j d w'
            | None => ~ ever_given init (l ++ [o]) d
            end.
Proof.
  intros [_ K] Hn d. specialize (K d).
  assert (G : forall j w', gives init (l ++ [o]) j d w' -> gives init l j d w').
  { intros j w' H. assert (Hj := gives_lt _ _ _ _ _ H). rewrite app_length in Hj. cbn in Hj.
    destruct (Nat.eq_dec j (List.length l)) as [->|Hne]; [exfalso; eapply Hn; eauto|].
    rewrite gives_app_lt in H by lia. assumption. }
  destruct (find _ _) as [e|].
  - destruct K as (i & Hi & Hl). exists i. split.
    + rewrite gives_app_lt by (eapply gives_lt; eauto). assumption.
    + intros j w' Hj H. apply (Hl j w' Hj). auto.
  - intros (j & w' & H). apply K. exists j, w'. auto.
Qed.

Lemma find_filter_same (d' d : decl) (l : list (decl * value)) : same_decl d' d = false ->
  find (fun e => same_decl (fst e) d) (filter (fun e => negb (same_decl (fst e) d')) l) = find (fun e => same_decl (fst e) d) l.
Proof.
  intros Hd. induction l as [|e l IH]; cbn; [reflexivity|].
  destruct (same_decl (fst e) d') eqn:E'; cbn.
  - destruct (same_decl (fst e) d) eqn:E; [|assumption].
    apply same_decl_eq in E', E. enough (same_decl d' d = true) by congruence. apply same_decl_eq. intuition congruence.
  - destruct (same_decl (fst e) d); auto.
Qed.
Lemma find_filter_none (d' d : decl) (l : list (decl * value)) : same_decl d' d = true ->
  find (fun e => same_decl (fst e) d) (filter (fun e => negb (same_decl (fst e) d')) l) = None.
Proof.
  intros Hd. induction l as [|e l IH]; cbn; [reflexivity|].
  destruct (same_decl (fst e) d') eqn:E'; cbn; [assumption|].
  destruct (same_decl (fst e) d) eqn:E; [|assumption].
  apply same_decl_eq in E, Hd. enough (same_decl (fst e) d' = true) by congruence. apply same_decl_eq. intuition congruence.
Qed.
Lemma find_app (A : Type) (p : A -> bool) a b : find p (a ++ b) = match find p a with Some x => Some x | None => find p b end.
Proof. induction a as [|x a IH]; cbn; [reflexivity|]. destruct (p x); auto. Qed.

Lemma knows_step init l o f f' : knows init l f -> f_order f o = Ok f' -> knows init (l ++ [o]) f'.
Proof.
  intros K. destruct o as [t|n v]; unfold f_order.
  - unfold f_choose. destruct (types t) as [ty|] eqn:Et; [|discriminate]. intros H. injection H as <-.
    split; [rewrite in_use_app; reflexivity|]. cbn [f_set]. apply knows_same; [assumption|].
    intros d w H. apply gives_last in H. destruct H as (n & v & d' & H & _). discriminate.
  - unfold f_option. destruct (String.eqb_spec n "") as [->|Hn].
    + intros H. injection H as <-. split; [rewrite in_use_app; apply K|]. apply knows_same; [assumption|].
      intros d w H. apply gives_last in H. destruct H as (n & v' & d' & H & Hn & _). injection H as <- <-. congruence.
    + rewrite (proj1 K). destruct (lookup_decl types (in_use init l) n) as [d'|] eqn:El; [|discriminate].
      destruct (accepts parse (d_kind d') v) as [w|] eqn:Ea; [|discriminate].
      intros H. injection H as <-. split; [rewrite in_use_app; reflexivity|]. cbn [f_set]. intros d.
      rewrite find_app. cbn [find fst]. destruct (same_decl d' d) eqn:Ed.
      * rewrite find_filter_none by assumption. cbn [snd]. exists (List.length l). split.
        -- apply gives_last. exists n, v, d'. auto.
        -- intros j w' Hj H. apply gives_lt in H. rewrite app_length in H. cbn in H. lia.
      * rewrite find_filter_same by assumption.
        pose proof K as [_ Kd]. specialize (Kd d).
        assert (G : forall j w', gives init (l ++ [Give n v]) j d w' -> gives init l j d w').
        { intros j w' H. assert (Hj := gives_lt _ _ _ _ _ H). rewrite app_length in Hj. cbn in Hj.
          destruct (Nat.eq_dec j (List.length l)) as [->|Hne].
          - apply gives_last in H. destruct H as (n' & v' & d2 & Ho & _ & El' & Ed' & _). injection Ho as <- <-. congruence.
          - rewrite gives_app_lt in H by lia. assumption. }
        destruct (find _ _) as [e|].
        -- destruct Kd as (i & Hi & Hl). exists i. split.
           ++ rewrite gives_app_lt by (eapply gives_lt; eauto). assumption.
           ++ intros j w' Hj H. apply (Hl j w' Hj). auto.
        -- intros (j & w' & H). apply Kd. exists j, w'. auto.
Qed.

Lemma knows_init init : knows init [] (mkF init []).
Proof. split; [reflexivity|]. cbn. intros d (i & w & H). apply gives_lt in H. cbn in H. lia. Qed.

Lemma knows_orders init l f : f_orders (mkF init []) l = Ok f -> knows init l f.
Proof.
  revert f. induction l as [|o l IH] using rev_ind; intros f.
  - cbn. intros H. injection H as <-. apply knows_init.
  - rewrite f_orders_app. destruct (f_orders (mkF init []) l) as [f1| | |]; try discriminate. cbn.
    destruct (f_order f1 o) as [f2| | |] eqn:E; try discriminate. cbn. intros H. injection H as <-.
    eapply knows_step; eauto.
Qed.

Lemma sensible_app_lt init l o i : (i < List.length l)%nat -> sensible init (l ++ [o]) i <-> sensible init l i.
Proof.
  intros Hi. unfold ConfigSpec.sensible. rewrite nth_error_app1, firstn_app by assumption.
  replace (i - List.length l)%nat with 0%nat by lia. cbn [firstn]. rewrite app_nil_r. tauto.
Qed.
Lemma sensible_last init l o f : f_type f = in_use init l ->
  sensible init (l ++ [o]) (List.length l) <-> exists f', f_order f o = Ok f'.
Proof.
  intros Ht. unfold ConfigSpec.sensible. rewrite nth_error_app2, Nat.sub_diag by lia. cbn [nth_error].
  rewrite firstn_app, Nat.sub_diag, firstn_all. cbn [firstn]. rewrite app_nil_r.
  destruct o as [t|n v]; unfold f_order.
  - unfold f_choose. destruct (types t); split; eauto; intros [? ?]; discriminate.
  - unfold f_option. destruct (String.eqb_spec n "") as [->|Hn]; [split; eauto|]. rewrite Ht. split.
    + intros [?|(d & w & Hd & Ha)]; [congruence|]. apply lookup_names in Hd. rewrite Hd, Ha. eauto.
    + intros [f' H]. right. destruct (lookup_decl types (in_use init l) n) as [d|] eqn:El; [|discriminate].
      destruct (accepts parse (d_kind d) v) as [w|] eqn:Ea; [|discriminate]. exists d, w. split; [apply lookup_names|]; assumption.
Qed.
Lemma orders_run init l : (exists f, f_orders (mkF init []) l = Ok f) <-> forall i, (i < List.length l)%nat -> sensible init l i.
Proof.
  induction l as [|o l IH] using rev_ind.
  - cbn. split; [intros _ i Hi; lia|eauto].
  - rewrite f_orders_app. split.
    + intros [f H] i Hi. destruct (f_orders (mkF init []) l) as [f1| | |] eqn:E; try discriminate. cbn in H.
      rewrite app_length in Hi. cbn in Hi. destruct (Nat.eq_dec i (List.length l)) as [->|Hne].
      * apply (sensible_last _ _ _ f1); [apply (knows_orders _ _ _ E)|]. destruct (f_order f1 o); try discriminate. eauto.
      * rewrite sensible_app_lt by lia. apply IH; [eauto|lia].
    + intros H. destruct (proj2 IH) as [f1 E].
      { intros i Hi. apply (sensible_app_lt init l o); [assumption|]. apply H. rewrite app_length. lia. }
      rewrite E. cbn.
      destruct (proj1 (sensible_last init l o f1 (proj1 (knows_orders _ _ _ E)))) as [f' E'].
      { apply H. rewrite app_length. cbn. lia. }
      exists f'. rewrite E'. reflexivity.
Qed.

(** * Making objects *)
Lemma f_has_given init l f d : knows init l f -> f_has f d = true <-> ever_given init l d.
Proof.
  intros [_ K]. specialize (K d). unfold f_has. rewrite existsb_exists. split.
  - intros (e & Hi & He). destruct (find _ _) as [x|] eqn:Ef.
    + destruct K as (i & Hg & _). exists i, (snd x). assumption.
    + exfalso. apply (find_none _ _ Ef) in Hi. cbn in Hi. congruence.
  - intros H. destruct (find _ _) as [x|] eqn:Ef; [|tauto]. exists x. apply find_some in Ef. assumption.
Qed.

Lemma create_said init l f o : knows init l f -> f_create types f = Ok o -> as_said types parse init l o.
Proof.
  intros K. unfold f_create. destruct (types (f_type f)) as [t|] eqn:Et; [|discriminate].
  destruct (t_new t); [|discriminate]. cbn. destruct (forallb _ _); [|discriminate]. cbn. intros H. injection H as <-.
  split; [apply K|]. cbn. exists t. repeat split; [assumption| |].
  - rewrite map_map. cbn. apply map_id.
  - intros d w Hi. apply in_map_iff in Hi. destruct Hi as (d' & E & _). injection E as -> <-.
    destruct K as [_ K]. specialize (K d). unfold f_value. unfold ConfigSpec.said.
    destruct (find _ _) as [e|]; [left; exact K|right; split; [exact K|reflexivity]].
Qed.

Lemma create_can init l f : knows init l f -> (exists o, f_create types f = Ok o) <-> can_make types parse init l.
Proof.
  intros K. unfold f_create, can_make. rewrite (proj1 K). destruct (types (in_use init l)) as [t|].
  2:{ split; [intros [o H]; discriminate|intros (t & H & _); discriminate]. }
  destruct (t_new t) eqn:En; cbn.
  2:{ split; [intros [o H]; discriminate|intros (t' & H & E & _)]. injection H as <-. congruence. }
  destruct (forallb _ _) eqn:Ef; cbn; split.
  - intros _. exists t. repeat split; auto. intros d Hd Hc Hg. rewrite forallb_forall in Ef. specialize (Ef d Hd).
    apply (f_has_given _ _ _ d K) in Hg. rewrite Hc, Hg in Ef. discriminate.
  - eauto.
  - intros [o H]; discriminate.
  - intros (t' & H & _ & Hg). injection H as <-. exfalso.
    assert (forallb (fun d => d_construct d || negb (f_has f d)) (t_decls t) = true); [|congruence].
    apply forallb_forall. intros d Hd. destruct (d_construct d) eqn:Ec; [reflexivity|]. cbn.
    destruct (f_has f d) eqn:Eh; [|reflexivity]. exfalso. apply (Hg d Hd Ec). apply (f_has_given _ _ _ d K). assumption.
Qed.

Lemma as_class_of class o : as_class types class o = Some o <-> of_class types class (o_type o).
Proof.
  unfold as_class, of_class. destruct (types (o_type o)) as [t|].
  - destruct (existsb (String.eqb class) (t_line t)) eqn:E.
    + split; [|reflexivity]. intros _. exists t. split; [reflexivity|]. apply existsb_exists in E.
      destruct E as (x & Hx & E). apply String.eqb_eq in E. subst. assumption.
    + split; [discriminate|]. intros (t' & H & Hi). injection H as <-. exfalso.
      assert (existsb (String.eqb class) (t_line t) = true); [|congruence].
      apply existsb_exists. exists class. split; [assumption|apply String.eqb_refl].
  - split; [discriminate|]. intros (t & H & _). discriminate.
Qed.
Lemma as_class_some class o x : as_class types class o = Some x -> x = o /\ of_class types class (o_type o).
Proof.
  intros H. assert (x = o). { unfold as_class in H. destruct (types (o_type o)); [|discriminate]. destruct (existsb _ _); congruence. }
  subst. split; [reflexivity|]. apply as_class_of. assumption.
Qed.

(** * The helpers *)
Section Helper.
Variable step : helper -> setting -> result helper.
Variable ords : slot -> setting -> list order.
Variable may : setting -> Prop.
(** A step gives each factory its orders. *)
Hypothesis step_orders : forall h c h', step h c = Ok h' -> forall s, f_orders (h s) (ords s c) = Ok (h' s).
Hypothesis step_runs : forall h c, (exists h', step h c = Ok h') <-> (may c /\ forall s, exists f, f_orders (h s) (ords s c) = Ok f).

Lemma configure_orders cs : forall h h', configure step h cs = Ok h' -> forall s, f_orders (h s) (flat_map (ords s) cs) = Ok (h' s).
Proof.
  induction cs as [|c cs IH]; intros h h' H s; cbn in *; [congruence|].
  destruct (step h c) as [h1| | |] eqn:E; try discriminate. cbn in H.
  rewrite f_orders_app, (step_orders _ _ _ E s). cbn. apply IH. assumption.
Qed.
Lemma configure_runs cs : forall h, (exists h', configure step h cs = Ok h') <->
  (Forall may cs /\ forall s, exists f, f_orders (h s) (flat_map (ords s) cs) = Ok f).
Proof.
  induction cs as [|c cs IH]; intros h; cbn.
  - split; [|eauto]. intros _. split; [constructor|]. intros s. eauto.
  - split.
    + intros [h' H]. destruct (step h c) as [h1| | |] eqn:E; try discriminate. cbn in H.
      destruct (proj1 (IH h1) (ex_intro _ h' H)) as [Hm Hs].
      split; [constructor; [|assumption]; apply (step_runs h c); eauto|].
      intros s. rewrite f_orders_app, (step_orders _ _ _ E s). cbn. apply Hs.
    + intros [Hm Hs]. inversion Hm as [|? ? Hc Hcs]. subst.
      destruct (proj2 (step_runs h c)) as [h1 E].
      { split; [assumption|]. intros s. destruct (Hs s) as [f Hf]. rewrite f_orders_app in Hf.
        destruct (f_orders (h s) (ords s c)); try discriminate. eauto. }
      rewrite E. cbn. apply IH. split; [assumption|]. intros s. destruct (Hs s) as [f Hf].
      rewrite f_orders_app, (step_orders _ _ _ E s) in Hf. cbn in Hf. eauto.
Qed.
End Helper.

Notation icarus_orders := (orders icarus_name true).
Notation isl_orders := (orders isl_name false).

Lemma put_same h s f : put h s f s = f.
Proof. unfold put. destruct (slot_dec s s); congruence. Qed.
Lemma put_other h s f s' : s <> s' -> put h s f s' = h s'.
Proof. unfold put. destruct (slot_dec s s'); congruence. Qed.

Lemma f_orders_one f o : f_orders f [o] = f_order f o.
Proof. cbn. destruct (f_order f o); reflexivity. Qed.
Lemma hset_orders name both p ty opts s : orders name both s (HSet p ty opts) =
  if slot_dec (SPart p) s then Use (name p ty) :: map (fun o => Give (fst o) (snd o)) opts else [].
Proof. destruct s; cbn [orders]; try (destruct (slot_dec _ _); [discriminate|reflexivity]). reflexivity. Qed.

Lemma icarus_step_orders h c h' : icarus_set types parse h c = Ok h' -> forall s, f_orders (h s) (icarus_orders s c) = Ok (h' s).
Proof.
  destruct c as [p ty opts|[n v]|[n v]]; unfold icarus_set; intros H s.
  - rewrite f_configure_orders in H. rewrite hset_orders.
    destruct (f_orders (h (SPart p)) _) as [f| | |] eqn:E; try discriminate. cbn in H. injection H as <-.
    unfold put. destruct (slot_dec (SPart p) s) as [<-|]; [assumption|reflexivity].
  - destruct (f_option types parse (h SSat) (n, v)) as [f1| | |] eqn:E1; try discriminate. cbn [rbind] in H.
    destruct (f_option types parse (h SGround) (n, v)) as [f2| | |] eqn:E2; try discriminate. cbn [rbind] in H. injection H as <-.
    destruct s; cbn [orders fst snd]; rewrite ?f_orders_one; reflexivity || assumption.
  - destruct (f_option types parse (h SChannel) (n, v)) as [f1| | |] eqn:E1; try discriminate. cbn [rbind] in H. injection H as <-.
    destruct s; cbn [orders fst snd]; rewrite ?f_orders_one; reflexivity || assumption.
Qed.
Lemma icarus_step_runs h c : (exists h', icarus_set types parse h c = Ok h') <->
  (True /\ forall s, exists f, f_orders (h s) (icarus_orders s c) = Ok f).
Proof.
  split.
  - intros [h' H]. split; [exact Logic.I|]. intros s. exists (h' s). apply icarus_step_orders. assumption.
  - intros [_ H]. destruct c as [p ty opts|[n v]|[n v]]; unfold icarus_set.
    + destruct (H (SPart p)) as [f Hf]. rewrite hset_orders in Hf. destruct (slot_dec (SPart p) (SPart p)); [|congruence].
      rewrite f_configure_orders, Hf. cbn. eauto.
    + destruct (H SSat) as [f1 H1], (H SGround) as [f2 H2]. cbn [orders fst snd] in H1, H2. rewrite f_orders_one in H1, H2.
      unfold f_order in H1, H2. rewrite H1. cbn [rbind]. rewrite H2. cbn. eauto.
    + destruct (H SChannel) as [f1 H1]. cbn [orders fst snd] in H1. rewrite f_orders_one in H1.
      unfold f_order in H1. rewrite H1. cbn. eauto.
Qed.

Definition isl_may (c : setting) : Prop := match c with HSet p _ _ => isl_has p = true | _ => True end.
Lemma isl_step_orders h c h' : isl_set types parse h c = Ok h' -> forall s, f_orders (h s) (isl_orders s c) = Ok (h' s).
Proof.
  destruct c as [p ty opts|[n v]|[n v]]; unfold isl_set; intros H s.
  - destruct (isl_has p); [|discriminate]. rewrite f_configure_orders in H. rewrite hset_orders.
    destruct (f_orders (h (SPart p)) _) as [f| | |] eqn:E; try discriminate. cbn in H. injection H as <-.
    unfold put. destruct (slot_dec (SPart p) s) as [<-|]; [assumption|reflexivity].
  - destruct (f_option types parse (h SSat) (n, v)) as [f1| | |] eqn:E1; try discriminate. cbn [rbind] in H. injection H as <-.
    destruct s; cbn [orders fst snd]; rewrite ?f_orders_one; reflexivity || assumption.
  - destruct (f_option types parse (h SChannel) (n, v)) as [f1| | |] eqn:E1; try discriminate. cbn [rbind] in H. injection H as <-.
    destruct s; cbn [orders fst snd]; rewrite ?f_orders_one; reflexivity || assumption.
Qed.
Lemma isl_step_runs h c : (exists h', isl_set types parse h c = Ok h') <->
  (isl_may c /\ forall s, exists f, f_orders (h s) (isl_orders s c) = Ok f).
Proof.
  split.
  - intros [h' H]. split.
    + destruct c; cbn in *; auto. destruct (isl_has p); [reflexivity|discriminate].
    + intros s. exists (h' s). apply isl_step_orders. assumption.
  - intros [Hm H]. destruct c as [p ty opts|[n v]|[n v]]; unfold isl_set.
    + cbn in Hm. rewrite Hm. destruct (H (SPart p)) as [f Hf]. rewrite hset_orders in Hf. destruct (slot_dec (SPart p) (SPart p)); [|congruence].
      rewrite f_configure_orders, Hf. cbn. eauto.
    + destruct (H SSat) as [f1 H1]. cbn [orders fst snd] in H1. rewrite f_orders_one in H1.
      unfold f_order in H1. rewrite H1. cbn. eauto.
    + destruct (H SChannel) as [f1 H1]. cbn [orders fst snd] in H1. rewrite f_orders_one in H1.
      unfold f_order in H1. rewrite H1. cbn. eauto.
Qed.

(** * What only the last call said *)
Definition is_use (o : order) : bool := match o with Use _ => true | _ => false end.
Lemma last_call_once l : (List.length (filter is_use l) <= 1)%nat -> (exists r, last_call l = r /\ exists g, l = (g ++ r)%list /\ forall o, In o g -> is_use o = false).
Proof.
  induction l as [|o l IH]; intros H; cbn [last_call].
  - exists []. split; [reflexivity|]. exists []. split; [reflexivity|]. intros ? [].
  - change (fun x => match x with Use _ => true | Give _ _ => false end) with is_use.
    destruct (existsb is_use l) eqn:E.
    + cbn in H. destruct (is_use o) eqn:Eo.
      * exfalso. cbn in H. apply existsb_exists in E. destruct E as (x & Hx & Ex).
        assert (In x (filter is_use l)) by (apply filter_In; auto). destruct (filter is_use l); [contradiction|cbn in H; lia].
      * destruct IH as (r & Hr & g & Hg & Hu); [assumption|]. exists r. split; [assumption|]. exists (o :: g). split; [cbn; congruence|].
        intros x [<-|Hx]; auto.
    + exists (o :: l). split; [reflexivity|]. exists []. split; [reflexivity|]. intros ? [].
Qed.
Lemma in_use_last_call l : forall t, in_use t (last_call l) = in_use t l.
Proof.
  induction l as [|o l IH]; intros t; cbn [last_call]; [reflexivity|].
  change (fun x => match x with Use _ => true | Give _ _ => false end) with is_use.
  destruct (existsb is_use l) eqn:E; [|reflexivity]. rewrite IH. destruct o as [u|n v]; cbn; [|reflexivity].
  clear IH. revert t u E. induction l as [|[u'|n v] l IH]; intros t u E; cbn in *; [discriminate|reflexivity|]. apply IH. assumption.
Qed.

(** Orders from the last choice of a type on. *)
Lemma last_call_split l : exists g, l = (g ++ last_call l)%list /\ (g = [] \/ exists t r, last_call l = Use t :: r).
Proof.
  induction l as [|o l IH]; cbn [last_call]; [exists []; auto|].
  change (fun x => match x with Use _ => true | Give _ _ => false end) with is_use.
  destruct (existsb is_use l) eqn:E; [|exists []; auto].
  destruct IH as (g & Hg & Hu). exists (o :: g). split; [cbn; congruence|]. right.
  destruct Hu as [->|Hu]; [|assumption]. cbn in Hg.
  clear o. revert E Hg. induction l as [|o l IH]; [discriminate|]. cbn [last_call].
  change (fun x => match x with Use _ => true | Give _ _ => false end) with is_use.
  intros E Hg. destruct (existsb is_use l) eqn:E'.
  - exfalso. assert (L : (List.length (last_call l) <= List.length l)%nat).
    { clear. induction l as [|o l IH]; cbn; [lia|]. destruct (existsb _ _); cbn; lia. }
    rewrite <- Hg in L. cbn in L. lia.
  - cbn in E. rewrite E', orb_false_r in E. destruct o; [eauto|discriminate].
Qed.
Lemma gives_last_call init l g i d w : l = (g ++ last_call l)%list -> (g = [] \/ exists t r, last_call l = Use t :: r) ->
  gives init (last_call l) i d w <-> gives init l (List.length g + i) d w.
Proof.
  intros Hg [->|(t & r & Hr)].
  - cbn in *. rewrite <- Hg. tauto.
  - rewrite Hg at 2. unfold ConfigSpec.gives.
    rewrite nth_error_app2 by lia. replace (List.length g + i - List.length g)%nat with i by lia.
    rewrite firstn_app_2, in_use_app, Hr. destruct i as [|i]; cbn [nth_error firstn in_use]; [|tauto].
    split; intros (n & v & d' & H & _); discriminate.
Qed.
Lemma gives_unique init l i d w w' : gives init l i d w -> gives init l i d w' -> w = w'.
Proof.
  intros (n & v & d1 & H1 & _ & L1 & _ & _ & A1) (n' & v' & d2 & H2 & _ & L2 & _ & _ & A2).
  rewrite H1 in H2. injection H2 as <- <-. apply lookup_names in L1, L2. congruence.
Qed.
Lemma said_unique init l d w w' : said init l d w -> said init l d w' -> w = w'.
Proof.
  intros [(i & G & M)|[N ->]] [(j & G' & M')|[N' ->]].
  - destruct (Nat.lt_trichotomy i j) as [H|[<-|H]]; [exfalso; eapply M; eauto|eapply gives_unique; eauto|exfalso; eapply M'; eauto].
  - exfalso. apply N'. exists i, w. assumption.
  - exfalso. apply N. exists j, w'. assumption.
  - reflexivity.
Qed.
Lemma last_given_ex init l d : (exists i w, gives init l i d w /\ forall j w', (i < j)%nat -> ~ gives init l j d w') \/ ~ ever_given init l d.
Proof.
  induction l as [|o l IH] using rev_ind.
  - right. intros (i & w & H). apply gives_lt in H. cbn in H. lia.
  - assert (D : (exists w, gives init (l ++ [o]) (List.length l) d w) \/ forall w, ~ gives init (l ++ [o]) (List.length l) d w).
    { destruct o as [t|n v]; [right; intros w H; apply gives_last in H; destruct H as (? & ? & ? & ? & _); discriminate|].
      destruct (String.eqb_spec n "") as [->|Hn].
      { right. intros w H. apply gives_last in H. destruct H as (n & v' & ? & E & Hn & _). injection E as <- <-. congruence. }
      destruct (lookup_decl types (in_use init l) n) as [d'|] eqn:El.
      2:{ right. intros w H. apply gives_last in H. destruct H as (n' & v' & ? & E & _ & El' & _). injection E as <- <-. congruence. }
      destruct (same_decl d' d) eqn:Es.
      2:{ right. intros w H. apply gives_last in H. destruct H as (n' & v' & d2 & E & _ & El' & Es' & _). injection E as <- <-. congruence. }
      destruct (accepts parse (d_kind d') v) as [w|] eqn:Ea.
      2:{ right. intros w H. apply gives_last in H. destruct H as (n' & v' & d2 & E & _ & El' & Es' & Ea'). injection E as <- <-.
          rewrite El in El'. injection El' as <-. congruence. }
      left. exists w. apply gives_last. exists n, v, d'. auto. }
    destruct D as [[w Hw]|D].
    { left. exists (List.length l), w. split; [assumption|]. intros j w' Hj H. apply gives_lt in H. rewrite app_length in H. cbn in H. lia. }
    assert (G : forall j w', gives init (l ++ [o]) j d w' -> gives init l j d w').
    { intros j w' H. assert (Hj := gives_lt _ _ _ _ _ H). rewrite app_length in Hj. cbn in Hj.
      destruct (Nat.eq_dec j (List.length l)) as [->|Hne]; [exfalso; eapply D; eauto|].
      rewrite gives_app_lt in H by lia. assumption. }
    destruct IH as [(i & w & Hi & Hl)|N].
    + left. exists i, w. split; [rewrite gives_app_lt by (eapply gives_lt; eauto); assumption|]. intros j w' Hj H. apply (Hl j w' Hj). auto.
    + right. intros (j & w & H). apply N. exists j, w. auto.
Qed.

(** The object asked for is the one expected exactly if nothing but defaults remains of earlier calls. *)
Lemma meant_iff init l o : as_said types parse init l o ->
  (as_meant types parse init l o <->
   forall d, In d (map fst (o_attrs o)) -> ever_given init l d -> ~ ever_given init (last_call l) d -> said init l d (d_default d)).
Proof.
  intros (E & t & Et & Hd & Ha). destruct (last_call_split l) as (g & Hg & Hu).
  pose proof (fun i d w => gives_last_call init l g i d w Hg Hu) as T.
  unfold as_meant, as_said. rewrite in_use_last_call. split.
  - intros (_ & t' & _ & _ & Hm) d Hi _ N. apply in_map_iff in Hi. destruct Hi as ([d' w] & Hf & Hi). cbn in Hf. subst d'.
    destruct (Hm d w Hi) as [(i & G & _)|[_ ->]]; [exfalso; apply N; exists i, w; assumption|]. apply Ha. assumption.
  - intros H. split; [assumption|]. exists t. repeat split; auto. intros d w Hi.
    destruct (last_given_ex init (last_call l) d) as [(i & w' & G & M)|N].
    + assert (S : said init l d w').
      { left. exists (List.length g + i)%nat. split; [apply T; assumption|]. intros j w2 Hj G2.
        replace j with (List.length g + (j - List.length g))%nat in G2 by lia. apply T in G2. revert G2. apply M. lia. }
      rewrite (said_unique _ _ _ _ _ (Ha d w Hi) S). left. exists i. auto.
    + right. split; [assumption|]. destruct (last_given_ex init l d) as [(i & w' & G & M)|N'].
      * assert (S : said init l d (d_default d)).
        { apply H; [apply in_map_iff; exists (d, w); auto| |assumption]. exists i, w'. assumption. }
        apply (said_unique _ _ _ _ _ (Ha d w Hi) S).
      * destruct (Ha d w Hi) as [(i & G & _)|[_ ->]]; [exfalso; apply N'; exists i, w; assumption|reflexivity].
Qed.

(** Devices and channels have no choice of type. *)
Lemma no_use name both s cs : (forall p, s <> SPart p) -> forall t, in_use t (flat_map (orders name both s) cs) = t.
Proof.
  intros Hs. induction cs as [|c cs IH]; intros t; cbn; [reflexivity|]. rewrite in_use_app, IH.
  destruct c, s; try reflexivity; try (exfalso; eapply Hs; reflexivity). destruct both; reflexivity.
Qed.

(** The type of a part is that of the last call for it. *)
Lemma in_use_part name both p : forall cs t, in_use t (flat_map (orders name both (SPart p)) cs) =
  match find (fun c => match c with HSet q _ _ => if slot_dec (SPart q) (SPart p) then true else false | _ => false end) (rev cs) with
  | Some (HSet q ty _) => name q ty | _ => t end.
Proof.
  induction cs as [|c cs IH] using rev_ind; intros t; [reflexivity|].
  rewrite flat_map_app, in_use_app, rev_app_distr. cbn [rev app find flat_map]. rewrite app_nil_r.
  destruct c as [q ty opts|o|o]; cbn [orders]; try apply IH.
  destruct (slot_dec (SPart q) (SPart p)); [|apply IH]. cbn [in_use].
  generalize (name q ty). induction opts; intros u; cbn; auto.
Qed.
End Proofs.
