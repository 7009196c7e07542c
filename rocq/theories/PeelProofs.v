(** The CRDSA receiver decodes what peeling decodes. *)
From Coq Require Import ZArith List Lia Bool Permutation Sorting.Sorted.
From Verif Require Import Base RxModel RxSpec RxProofs AlohaModel AlohaSpec AlohaProofs CrdsaModel CrdsaSpec CrdsaProofs CrdsaRun CrdsaSafe PeelSpec.
Import ListNotations.
Open Scope Z_scope.

Lemma peel_mono : forall c c' u, incl c c' -> peels c u -> peels c' u.
Proof. intros c c' u I P X C. apply P. intros k v Ik Iv H. apply (C k v); auto. Qed.

Lemma peels_closed : forall c, peel_closed c (peels c).
Proof. intros c k u Ik Iu H X C. apply (C k u Ik Iu). intros v Iv Nv. exact (H v Iv Nv X C). Qed.

Lemma busy_periods_snoc : forall M (m : mac_rx M) ops o s s' busy, rx_run m s ops = Some (Ok s') ->
  busy_periods (st_pending s) busy (ops ++ [o]) =
  busy_periods (st_pending s) busy ops ++
    match o, st_pending s' with OFinish, [_] => [busy_frames (st_pending s) busy ops] | _, _ => [] end.
Proof.
  induction ops as [|x ops IH]; intros o s s' busy R.
  - inversion R; subst. cbn [app busy_periods busy_frames]. destruct o; [reflexivity|].
    destruct (st_pending s') as [|a [|b l]]; reflexivity.
  - cbn [rx_run app] in *. destruct x as [t u z p|]; cbn [rx_step] in R.
    + destruct (_ && _); [|discriminate]. cbn [busy_frames busy_periods].
      exact (IH o (mkSt t (mac_start m (st_mac s) (mkRx u t (t + z) p)) (schedule (mkRx u t (t + z) p) (st_pending s)) (st_log s)) s' _ R).
    + destruct (st_pending s) as [|r l] eqn:Ep; [discriminate|].
      destruct (mac_finish m (st_mac s) r) as [[m' up]| | |]; cbn [rbind] in R; try discriminate.
      cbn [busy_periods busy_frames tl]. specialize (IH o (mkSt (rx_end r) m' l (st_log s ++ [(r, up)])) s' busy R). cbn [st_pending] in IH.
      destruct l as [|b l]; [cbn [app]; f_equal|]; exact IH.
Qed.

Lemma busy_periods_prefix : forall ops o M (m : mac_rx M) s s' busy, rx_run m s ops = Some (Ok s') ->
  incl (busy_periods (st_pending s) busy ops) (busy_periods (st_pending s) busy (ops ++ [o])).
Proof. intros. rewrite (busy_periods_snoc M m ops o s s' busy H). apply incl_appl, incl_refl. Qed.

Lemma kept_period : forall limit l q, ordered l -> In q l -> limit < fst q -> In q (clean_periods limit l).
Proof. intros. rewrite clean_periods_ordered by assumption. apply filter_In. split; [assumption|]. apply Z.ltb_lt; assumption. Qed.

Lemma missing_single : forall rec l u, NoDup l -> In u l -> ~ In u (map fst rec) ->
  (forall v, In v l -> v <> u -> In v (map fst rec)) -> missing rec l = [u].
Proof.
  intros rec l u Nd Iu Nu H.
  assert (Mm : forall v, In v (missing rec l) <-> v = u).
  { intros v. rewrite missing_in. split.
    - intros [A B]. destruct (Z.eq_dec v u); auto. exfalso. auto.
    - intros ->. auto. }
  assert (Nm : NoDup (missing rec l)) by (apply NoDup_filter; auto).
  destruct (missing rec l) as [|a [|b t]].
  - exfalso. apply (Mm u). reflexivity.
  - f_equal. apply Mm. left; auto.
  - exfalso. assert (a = u) by (apply Mm; left; auto). assert (b = u) by (apply Mm; right; left; auto).
    subst. inversion Nm as [|? ? Nin _]; subst. apply Nin. left; auto.
Qed.

Lemma clean_received_in : forall limit rec v t, In (v, t) (clean_received limit rec) <-> In (v, t) rec /\ limit <= t.
Proof.
  intros. unfold clean_received. rewrite filter_In. cbn [snd]. rewrite negb_true_iff, Z.ltb_ge. tauto.
Qed.

Section Peel.
Variable below : Z -> Z -> bool.
Variable two : Z.
Variable garbage : Z.
Variable frame : Z -> Z.
Let mac := crdsa_mac below two.
Let start := rx_init (crdsa_init garbage).
Hypothesis no_capt : forall p i, 0 < i -> below p i = true.

Definition ups_log (s : rx_state crdsa) : list Z := flat_map snd (st_log s).

Definition stored_for (s : rx_state crdsa) (p : list reception) (e : Z) (S : list Z) : Prop :=
  In (e, S) (cr_active (st_mac s)) /\ forall v, In v S <-> In v (packets p) /\ ~ In v (ups_log s).

Record peel_inv (ops : list rx_op) (s : rx_state crdsa) : Prop := mkPeel {
  pi_closed : peel_closed (collisions_of ops) (fun v => In v (ups_log s));
  pi_sound : forall u, In u (ups_log s) -> peels (collisions_of ops) u;
  pi_act : forall e S, In (e, S) (cr_active (st_mac s)) -> exists p, In p (busy_periods [] [] ops) /\ stored_for s p e S;
  pi_kept : forall p u, In p (busy_periods [] [] ops) -> (2 <= length p)%nat -> In u (packets p) -> ~ In u (ups_log s) ->
    exists x, In x p /\ ((exists S, stored_for s p (rx_end x) S) \/ rx_end x <= st_now s - two);
  pi_rec : forall v t, In (v, t) (cr_received (st_mac s)) -> In v (ups_log s);
  pi_log : forall x up v, In (x, up) (st_log s) -> In v up -> In x (receptions ops) /\ frame (rx_uid x) = frame v /\
    (In (v, rx_end x) (cr_received (st_mac s)) \/ rx_end x < st_now s - two);
  pi_once : NoDup (ups_log s);
  pi_all : forall p x, In p (busy_periods [] [] ops) -> In x p -> In x (receptions ops);
  pi_busy : incl (busy_frames [] [] ops) (receptions ops) }.

Lemma framed_prefix : forall ops o s, rx_run mac start ops = Some (Ok s) -> framed two frame (ops ++ [o]) -> framed two frame ops.
Proof.
  intros ops o s R [A B]. split.
  - intros p a b Ip. apply A. exact (busy_periods_prefix ops o crdsa mac start s [] R p Ip).
  - intros a b Ia Ib. apply B; rewrite receptions_app; apply in_or_app; auto.
Qed.

Lemma peel_holds : forall ops s, rx_run mac start ops = Some (Ok s) -> sane ops -> separate [] ops -> finish_first [] ops ->
  Forall (fun r => 0 < rx_pow r) (receptions ops) -> framed two frame ops -> peel_inv ops s.
Proof.
  intros ops s R. revert ops s R.
  apply (rx_run_ind crdsa mac start (fun ops s => sane ops -> separate [] ops -> finish_first [] ops ->
    Forall (fun r => 0 < rx_pow r) (receptions ops) -> framed two frame ops -> peel_inv ops s)).
  - intros _ _ _ _ _. constructor; cbn; try tauto; try constructor; try (intros ? ? []); intros ? [].
  - intros ops o s s' R IH E Sa Se Ff Po Fr.
    pose proof (sane_app _ _ Sa) as Sa'. destruct (separate_app _ _ _ _ _ _ R Se) as [Se' _].
    pose proof (finish_first_prefix _ _ _ Ff) as Ff'. pose proof Po as Po'. rewrite receptions_app, Forall_app in Po'. destruct Po' as [Po' _].
    pose proof (framed_prefix _ _ _ R Fr) as Fr'. specialize (IH Sa' Se' Ff' Po' Fr').
    destruct (cr_inv_holds below two garbage ops s R Sa' Se') as (I1 & I2 & I3 & I4 & I5 & I6 & I7 & I8).
    pose proof (busy_periods_snoc crdsa mac ops o start s [] R) as Bp. cbn [st_pending start rx_init] in Bp.
    pose proof (busy_frames_snoc crdsa mac ops o start s [] R) as Bf. cbn [st_pending start rx_init] in Bf.
    destruct (base_inv_holds _ _ _ _ _ R Sa') as (Pm & _ & Fn & _).
    destruct o as [t u x p|]; cbn [rx_step] in E.
    + destruct (_ && _) eqn:G; [|discriminate]. apply andb_true_iff in G. destruct G as [G _]. apply Z.leb_le in G.
      injection E as <-. rewrite app_nil_r in Bp.
      destruct IH as [J1 J2 J3 J4 J5 J6 J7 J8 J9].
      constructor; unfold collisions_of, stored_for, ups_log in *; cbn [st_mac st_now st_log mac crdsa_mac mac_start crdsa_start cr_active cr_received];
        rewrite ?Bp; auto.
      * intros q v Iq L Iv Nv. destruct (J4 q v Iq L Iv Nv) as (y & Iy & [Y|Y]); exists y; split; auto. right. lia.
      * intros y up v Iy Iv. destruct (J6 y up v Iy Iv) as (A & B & C). rewrite receptions_app.
        split; [apply in_or_app; auto|]. split; auto. destruct C as [C|C]; [auto|right; lia].
      * intros q y Iq Iy. rewrite receptions_app. apply in_or_app. left. eauto.
      * rewrite Bf. cbn [busy_frames]. rewrite receptions_app. cbn [receptions flat_map app]. fold (receptions ops).
        destruct (st_pending s); [apply incl_appr, incl_refl|]. apply incl_app; [apply incl_appl; auto|apply incl_appr, incl_refl].
    + destruct (st_pending s) as [|r l] eqn:Ep; [discriminate|].
      cbn [mac crdsa_mac mac_finish] in E.
      destruct (crdsa_finish below two (st_mac s) r) as [[m' up]| | |] eqn:Ef; cbn [rbind] in E; try discriminate.
      injection E as <-. inversion Fn as [|? ? Fnr _]; subst. clear Fn.
      destruct (no_capture_verdict below two garbage no_capt ops s r l R Sa' Se' Ff' Po' Ep) as [V1 V2].
      destruct (cr_owner_iff below two garbage ops s r l R Sa' Se' Ep) as [Ow Of].
      destruct (busy_record below two garbage ops s R Sa' Se' Ff') as [_ Bl]; [rewrite Ep; discriminate|].
      destruct (crdsa_finish_cases _ _ _ _ _ _ Ef) as (rec1 & up1 & C1 & C2 & C). cbv zeta in *. rewrite V1 in *.
      assert (Er : receptions (ops ++ [OFinish]) = receptions ops) by (rewrite receptions_app; cbn; apply app_nil_r).
      destruct IH as [J1 J2 J3 J4 J5 J6 J7 J8 J9].
      destruct C as [(No & -> & ->)|(Ow' & act2 & rec2 & act3 & rec3 & up2 & E2 & E3 & Ec & -> & ->)].
      * assert (Ln : l <> []) by tauto. assert (Hc : al_coll (cr_busy (st_mac s)) = true) by auto.
        destruct (C1 (or_introl Hc)) as [-> ->].
        assert (Bp' : busy_periods [] [] (ops ++ [OFinish]) = busy_periods [] [] ops).
        { rewrite Bp. destruct l; [congruence|]. apply app_nil_r. }
        assert (Eu : forall m p, ups_log (mkSt (rx_end r) m p (st_log s ++ [(r, [])])) = ups_log s)
          by (intros; unfold ups_log; cbn [st_log]; rewrite flat_map_app; cbn; apply app_nil_r).
        constructor; unfold collisions_of, stored_for in *; cbn [st_mac st_now cr_active cr_received]; rewrite ?Bp', ?Eu, ?Er; auto.
        -- intros q v Iq L Iv Nv. destruct (J4 q v Iq L Iv Nv) as (y & Iy & [Y|Y]); exists y; split; auto. right. lia.
        -- intros y up v Iy Iv. cbn [st_log] in Iy. apply in_app_or in Iy. destruct Iy as [Iy|[Iy|[]]]; [|injection Iy as <- <-; destruct Iv].
           destruct (J6 y up v Iy Iv) as (A & B & [D|D]); repeat split; auto. right. lia.
        -- rewrite Bf. exact J9.
      * assert (l = []) by tauto. subst l. cbn [tl] in *. specialize (Of eq_refl).
        set (p' := busy_frames [] [] ops) in *.
        assert (Rp : In r p') by (apply I4; left; auto).
        assert (Rr : In r (receptions ops)) by (apply J9; auto).
        destruct Fr as [Fr1 Fr2]. rewrite Er in Fr2.
        assert (Ip' : In p' (busy_periods [] [] (ops ++ [OFinish]))) by (rewrite Bp; apply in_or_app; right; left; auto).
        assert (Tp : 0 < two) by (specialize (Fr2 r r Rr Rr eq_refl); lia).
        assert (Fp : forall v, In v (packets p') -> frame v = frame (rx_uid r)).
        { intros v Iv. apply in_map_iff in Iv. destruct Iv as (x & <- & Ix). eapply Fr1; eauto. }
        assert (Hset : forall v, In v (cr_set (st_mac s)) <-> In v (packets p')) by (intros v; apply I3; discriminate).
        set (U := ups_log s) in *. set (f := frame (rx_uid r)) in *.
        (* what was passed up in this frame is still on record *)
        assert (Rec : forall v, In v U -> frame v = f -> exists x up, In (x, up) (st_log s) /\ In v up /\ In (v, rx_end x) (cr_received (st_mac s)) /\ rx_end r - two <= rx_end x).
        { intros v Iv Fv. unfold U, ups_log in Iv. apply in_flat_map in Iv. destruct Iv as ((x & up) & Il & Iv). cbn [snd] in Iv.
          destruct (J6 x up v Il Iv) as (A & B & D). assert (Lt : rx_end r < rx_end x + two) by (apply Fr2; auto; fold f; congruence).
          exists x, up. repeat split; auto; [|lia]. destruct D; [auto|lia]. }
        assert (Hrec1 : forall v t, In (v, t) rec1 <-> In (v, t) (cr_received (st_mac s)) \/ (In v up1 /\ t = rx_end r)).
        { intros v t. destruct (in_dec Z.eq_dec (rx_uid r) (map fst (cr_received (st_mac s)))) as [Y|N].
          - destruct (C1 (or_intror Y)) as [-> ->]. cbn. tauto.
          - destruct (al_coll (cr_busy (st_mac s))).
            + destruct (C1 (or_introl eq_refl)) as [-> ->]. cbn. tauto.
            + destruct (C2 (conj eq_refl N)) as [-> ->]. cbn [In]. split.
              * intros [X|X]; [injection X as <- <-; auto|auto].
              * intros [X|[[<-|[]] ->]]; auto. }
        assert (Hup1 : forall v, In v up1 -> v = rx_uid r /\ al_coll (cr_busy (st_mac s)) = false /\ ~ In v U).
        { intros v Iv. destruct (al_coll (cr_busy (st_mac s))) eqn:Ea; [destruct (C1 (or_introl eq_refl)) as [_ X]; rewrite X in Iv; destruct Iv|].
          destruct (in_dec Z.eq_dec (rx_uid r) (map fst (cr_received (st_mac s)))) as [Y|N].
          - destruct (C1 (or_intror Y)) as [_ X]. rewrite X in Iv. destruct Iv.
          - destruct (C2 (conj eq_refl N)) as [_ X]. rewrite X in Iv. destruct Iv as [<-|[]]. repeat split; auto.
            intros Iu. destruct (Rec (rx_uid r) Iu eq_refl) as (x & upx & _ & _ & Z & _). apply N. apply in_map_iff. exists (rx_uid r, rx_end x). auto. }
        assert (Nup1 : NoDup up1).
        { destruct (in_dec Z.eq_dec (rx_uid r) (map fst (cr_received (st_mac s)))) as [Y|N].
          - destruct (C1 (or_intror Y)) as [_ ->]. constructor.
          - destruct (al_coll (cr_busy (st_mac s))); [destruct (C1 (or_introl eq_refl)) as [_ ->]; constructor|].
            destruct (C2 (conj eq_refl N)) as [_ ->]. repeat constructor. intros []. }
        (* domains of the records *)
        assert (Hrec2 : forall v, In v (map fst rec2) -> In v U \/ In v up1).
        { intros v Iv. apply in_map_iff in Iv. destruct Iv as ((w & t) & <- & Iv). rewrite E3 in Iv. apply clean_received_in in Iv.
          destruct Iv as [Iv _]. apply Hrec1 in Iv. cbn [fst]. destruct Iv as [Iv|[Iv _]]; [left; eapply J5; eauto|auto]. }
        assert (Hrec2' : forall v, frame v = f -> In v U \/ In v up1 -> In v (map fst rec2)).
        { intros v Fv [Iv|Iv]; apply in_map_iff.
          - destruct (Rec v Iv Fv) as (x & upx & _ & _ & A & B). exists (v, rx_end x). split; auto. rewrite E3. apply clean_received_in. split; [|lia].
            apply Hrec1. auto.
          - exists (v, rx_end r). split; auto. rewrite E3. apply clean_received_in. split; [|lia]. apply Hrec1. auto. }
        assert (Fup1 : forall v, In v up1 -> frame v = f) by (intros v Iv; destruct (Hup1 v Iv) as [-> _]; reflexivity).
        (* the collisions that are kept *)
        assert (Oact : ordered (if al_coll (cr_busy (st_mac s)) then cr_active (st_mac s) ++ [(al_finish (cr_busy (st_mac s)), cr_set (st_mac s))] else cr_active (st_mac s))).
        { destruct (al_coll (cr_busy (st_mac s))); [|exact I5]. apply ordered_snoc; [exact I5|]. rewrite Of. eapply Forall_impl; [|exact I6].
          cbn. intros a [A _]. lia. }
        assert (Act2 : forall e S, In (e, S) act2 -> In (e, S) (cr_active (st_mac s)) \/ (e = rx_end r /\ S = cr_set (st_mac s) /\ al_coll (cr_busy (st_mac s)) = true)).
        { intros e S I. rewrite E2 in I. apply clean_periods_incl in I. destruct (al_coll (cr_busy (st_mac s))); [|auto].
          apply in_app_or in I. destruct I as [I|[I|[]]]; [auto|]. injection I as <- <-. auto. }
        assert (Act2o : forall e S, In (e, S) (cr_active (st_mac s)) -> rx_end r - two < e -> In (e, S) act2).
        { intros e S I L. rewrite E2. apply kept_period; auto. destruct (al_coll _); [apply in_or_app|]; auto. }
        assert (Act2n : al_coll (cr_busy (st_mac s)) = true -> In (rx_end r, cr_set (st_mac s)) act2).
        { intros Ha. rewrite E2. apply kept_period; auto; [|cbn; lia]. rewrite Ha, Of. apply in_or_app. right. left; auto. }
        assert (Nd2 : Forall (fun q : period => NoDup (snd q)) act2).
        { apply Forall_forall. intros (e & S) I. destruct (Act2 e S I) as [A|(_ & -> & _)]; cbn; apply sorted_nodup; auto.
          rewrite Forall_forall in I6. apply (I6 (e, S) A). }
        destruct (cancel_ok _ _ _ _ _ _ _ Ec) as (K1 & K2 & K3 & K4 & K5 & _).
        pose proof (cancel_recoverable _ _ _ _ _ _ _ Ec Nd2) as K6.
        set (C' := collisions_of (ops ++ [OFinish])).
        assert (Cp : C' = collisions_of ops ++ [packets p']) by (unfold C', collisions_of; rewrite Bp, map_app; reflexivity).
        assert (Cin : incl (collisions_of ops) C') by (rewrite Cp; apply incl_appl, incl_refl).
        assert (Cnew : In (packets p') C') by (rewrite Cp; apply in_or_app; right; left; auto).
        assert (Pin : forall q, In q (busy_periods [] [] ops) -> In (packets q) C') by (intros q Iq; apply Cin; apply in_map; auto).
        assert (Single : al_coll (cr_busy (st_mac s)) = false -> packets p' = [rx_uid r]).
        { intros Ha. rewrite Ha in Bl. symmetry in Bl. apply Z.ltb_ge in Bl. destruct p' as [|a [|b t]]; [destruct Rp| |cbn [length] in Bl; lia].
          destruct Rp as [->|[]]. reflexivity. }
        assert (Multi : al_coll (cr_busy (st_mac s)) = true -> (2 <= length p')%nat).
        { intros Ha. rewrite Ha in Bl. symmetry in Bl. apply Z.ltb_lt in Bl. lia. }
        assert (Sound1 : forall v, In v U \/ In v up1 -> peels C' v).
        { intros v [Iv|Iv]; [apply (peel_mono (collisions_of ops)); auto|].
          destruct (Hup1 v Iv) as (-> & Ha & _). apply (peels_closed C' (packets p')); auto; rewrite (Single Ha); [left; auto|].
          intros w [<-|[]] N. congruence. }
        (* what cancellation recovers *)
        assert (Sound2 : forall u, In u up2 -> peels C' u /\ frame u = f /\ ~ In u U /\ ~ In u up1).
        { intros u Iu. apply K6 in Iu. apply (Iu (fun u => peels C' u /\ frame u = f /\ ~ In u U /\ ~ In u up1)). clear u Iu.
          intros (e & S) u Ic Iu Nu Hv. cbn [snd] in Iu, Hv.
          assert (N1 : ~ In u up1) by (intros X; apply Nu; apply Hrec2'; auto).
          destruct (Act2 e S Ic) as [A|(_ & -> & Ha)].
          - destruct (J3 e S A) as (q & Iq & _ & Sq). apply Sq in Iu as Iu'. destruct Iu' as [Iuq Nuq].
            destruct (Z.eq_dec (frame u) f) as [Fu|Fu].
            + split; [|auto]. apply (peels_closed C' (packets q)); auto. intros v Iv Nv.
              destruct (in_dec Z.eq_dec v U) as [Y|Y]; [apply Sound1; auto|].
              destruct (Hv v (proj2 (Sq v) (conj Iv Y)) Nv) as [X|[X _]]; [apply Sound1; apply Hrec2; exact X|exact X].
            + exfalso. apply Nuq. apply (J1 (packets q) u); [apply in_map; auto|auto|]. intros v Iv Nv.
              assert (Fv : frame v = frame u).
              { apply in_map_iff in Iv. destruct Iv as (a & <- & Ia). apply in_map_iff in Iuq. destruct Iuq as (b & <- & Ib). destruct Fr' as [Fq _]. eapply Fq; eauto. }
              destruct (in_dec Z.eq_dec v U) as [Y|Y]; [exact Y|].
              destruct (Hv v (proj2 (Sq v) (conj Iv Y)) Nv) as [X|(_ & X & _)]; [|congruence].
              apply Hrec2 in X. destruct X as [X|X]; [exact X|]. apply Fup1 in X. congruence.
          - apply Hset in Iu. split; [|split; [apply Fp; auto|split; [|auto]]].
            + apply (peels_closed C' (packets p')); auto. intros v Iv Nv.
              destruct (Hv v (proj2 (Hset v) Iv) Nv) as [X|[X _]]; [apply Sound1; apply Hrec2; exact X|exact X].
            + intros X. apply Nu. apply Hrec2'; auto. }
        set (s' := mkSt (rx_end r) (mkCr (mkAloha None (rx_end r) false 0) [] act3 rec3) [] (st_log s ++ [(r, up1 ++ up2)])).
        assert (Eu : ups_log s' = U ++ up1 ++ up2).
        { unfold U, ups_log, s'. cbn [st_log]. rewrite flat_map_app. cbn [flat_map snd]. rewrite app_nil_r. reflexivity. }
        assert (Iu' : forall v, In v (ups_log s') <-> (In v U \/ In v up1) \/ In v up2) by (intros v; rewrite Eu, !in_app_iff; tauto).
        assert (Hrec3 : forall v, In v (map fst rec3) <-> In v up2 \/ In v (map fst rec2)) by (intros v; rewrite K1; apply grown_in).
        assert (Hrec3' : forall v, In v (map fst rec3) -> In v (ups_log s')).
        { intros v Iv. apply Hrec3 in Iv. apply Iu'. destruct Iv as [Iv|Iv]; [auto|]. apply Hrec2 in Iv. tauto. }
        assert (Act3 : forall q e S, In (e, S) act2 -> (forall v, In v S <-> In v (packets q) /\ ~ In v U) \/ (q = p' /\ S = cr_set (st_mac s)) ->
          forall v, In v (missing rec3 S) <-> In v (packets q) /\ ~ In v (ups_log s')).
        { intros q e S Is Hq v. rewrite missing_in. destruct Hq as [Hq|[-> ->]].
          - rewrite Hq. split.
            + intros [[A B] D]. split; auto. rewrite Iu'. intros [[X|X]|X]; auto; apply D, Hrec3; auto.
            + intros [A B]. split; [split; auto; intros X; apply B, Iu'; auto|]. intros X. apply B. auto.
          - rewrite Hset. split.
            + intros [A D]. split; auto. rewrite Iu'. intros X. apply D, Hrec3. destruct X as [X|X]; [right; apply Hrec2'; auto|auto].
            + intros [A B]. split; auto. }
        assert (Hkept : forall q u, In q (busy_periods [] [] (ops ++ [OFinish])) -> (2 <= length q)%nat -> In u (packets q) -> ~ In u (ups_log s') ->
          exists x, In x q /\ ((exists e S, e = rx_end x /\ In (e, S) act2 /\ ((forall v, In v S <-> In v (packets q) /\ ~ In v U) \/ (q = p' /\ S = cr_set (st_mac s)))) \/ rx_end x <= rx_end r - two)).
        { intros q u Iq L Iu Nu. rewrite Bp in Iq. apply in_app_or in Iq. destruct Iq as [Iq|[<-|[]]].
          - assert (NuU : ~ In u U) by (intros X; apply Nu, Iu'; auto).
            destruct (J4 q u Iq L Iu NuU) as (x & Ix & [(S & A & B)|Y]); exists x; split; auto; [|right; lia].
            destruct (Z_lt_le_dec (rx_end r - two) (rx_end x)); [|right; lia].
            left. exists (rx_end x), S. split; auto.
          - exists r. split; auto. destruct (al_coll (cr_busy (st_mac s))) eqn:Ha.
            + left. exists (rx_end r), (cr_set (st_mac s)). split; auto.
            + exfalso. specialize (Single eq_refl). apply (f_equal (@length Z)) in Single. unfold packets in Single. rewrite map_length in Single. cbn in Single. lia. }
        constructor; fold C'.
        -- intros c u Ic Iu Hv. destruct (in_dec Z.eq_dec u (ups_log s')) as [Y|Y]; [exact Y|exfalso].
           unfold C', collisions_of in Ic. apply in_map_iff in Ic. destruct Ic as (q & <- & Iq).
           destruct (Z.eq_dec (frame u) f) as [Fu|Fu].
           ++ assert (Lq : (2 <= length q)%nat).
              { rewrite Bp in Iq. apply in_app_or in Iq. destruct q as [|a [|b t]]; [destruct Iu| |cbn; lia]. exfalso. destruct Iq as [Iq|[Iq|[]]].
                - apply Y, Iu'. left. left. apply (J1 (packets [a]) u); [apply in_map; auto|auto|]. destruct Iu as [<-|[]]. intros v [<-|[]] N. congruence.
                - destruct (al_coll (cr_busy (st_mac s))) eqn:Ha; [specialize (Multi eq_refl); rewrite Iq in Multi; cbn in Multi; lia|].
                  specialize (Single eq_refl). rewrite Iq in Single. rewrite Single in Iu. destruct Iu as [<-|[]].
                  destruct (in_dec Z.eq_dec (rx_uid r) (map fst (cr_received (st_mac s)))) as [Z|Z].
                  + apply in_map_iff in Z. destruct Z as ((w & t) & Ew & Z). cbn in Ew. subst w. apply Y, Iu'. left. left. eapply J5; eauto.
                  + destruct (C2 (conj eq_refl Z)) as [_ X]. apply Y, Iu'. left. right. rewrite X. left; auto. }
              destruct (Hkept q u Iq Lq Iu Y) as (x & Ix & [(e & S & Ee & Is & Hs)|Le]).
              ** assert (Ms : missing rec3 S = [u]); [|exact (K5 _ Is u Ms)].
                 pose proof (Act3 q e S Is Hs) as A3. rewrite Forall_forall in Nd2. specialize (Nd2 _ Is). cbn [snd] in Nd2.
                 assert (Mu : In u (missing rec3 S)) by (apply A3; auto). apply missing_in in Mu. destruct Mu as [Mu1 Mu2].
                 apply missing_single; auto. intros v Iv Nv. destruct (in_dec Z.eq_dec v (map fst rec3)) as [Z|Z]; auto. exfalso.
                 assert (Mv : In v (missing rec3 S)) by (apply missing_in; auto). apply A3 in Mv. destruct Mv as [Mv1 Mv2]. apply Mv2. auto.
              ** assert (Fx : frame (rx_uid x) = f).
                 { apply in_map_iff in Iu. destruct Iu as (b & <- & Ib). rewrite <- Fu. eapply Fr1; eauto. }
                 assert (Xr : In x (receptions ops)).
                 { rewrite Bp in Iq. apply in_app_or in Iq. destruct Iq as [Iq|[<-|[]]]; [eapply J8; eauto|apply J9; auto]. }
                 assert (rx_end r < rx_end x + two) by (apply Fr2; auto). lia.
           ++ assert (Iq' : In q (busy_periods [] [] ops)).
              { rewrite Bp in Iq. apply in_app_or in Iq. destruct Iq as [Iq|[<-|[]]]; [auto|]. exfalso. apply Fu, Fp; auto. }
              apply Y, Iu'. left. left. apply (J1 (packets q) u); [apply in_map; auto|auto|]. intros v Iv Nv. specialize (Hv v Iv Nv). cbn in Hv. apply Iu' in Hv.
              assert (Fv : frame v = frame u).
              { apply in_map_iff in Iv. destruct Iv as (a & <- & Ia). apply in_map_iff in Iu. destruct Iu as (b & <- & Ib). eapply Fr1; eauto. }
              destruct Hv as [[X|X]|X]; [exact X| |].
              ** exfalso. apply Fup1 in X. congruence.
              ** exfalso. destruct (Sound2 v X) as (_ & X2 & _). congruence.
        -- intros u Iu. apply Iu' in Iu. destruct Iu as [Iu|Iu]; [apply Sound1; auto|apply Sound2; auto].
        -- intros e S Is. unfold s' in Is. cbn [st_mac cr_active] in Is. rewrite K4 in Is. apply remaining_in in Is. destruct Is as ((e0 & S0) & I0 & Eq & Ne).
           unfold reduce in Eq. cbn [fst snd] in Eq. injection Eq as -> ->. cbn [snd] in Ne.
           assert (Hq : exists q, In q (busy_periods [] [] (ops ++ [OFinish])) /\ ((forall v, In v S0 <-> In v (packets q) /\ ~ In v U) \/ (q = p' /\ S0 = cr_set (st_mac s)))).
           { destruct (Act2 e0 S0 I0) as [A|(_ & -> & _)].
             - destruct (J3 _ _ A) as (q & Iq & _ & Sq). exists q. split; [rewrite Bp; apply in_or_app; auto|auto].
             - exists p'. auto. }
           destruct Hq as (q & Iq & Hq). exists q. split; auto. split; [|eapply Act3; eauto].
           unfold s'. cbn [st_mac cr_active]. rewrite K4. apply remaining_in. exists (e0, S0). repeat split; auto.
        -- intros q u Iq L Iu Nu. destruct (Hkept q u Iq L Iu Nu) as (x & Ix & [(e & S & -> & Is & Hs)|Le]); exists x; split; auto. left.
           exists (missing rec3 S). split; [|eapply Act3; eauto]. unfold s'. cbn [st_mac cr_active]. rewrite K4. apply remaining_in. exists (rx_end x, S).
           repeat split; auto. cbn [snd]. intros X. assert (Z : In u (missing rec3 S)) by (eapply Act3; eauto). rewrite X in Z. destruct Z.
        -- intros v t Iv. unfold s' in Iv. cbn [st_mac cr_received] in Iv. apply Hrec3'. apply in_map_iff. exists (v, t). auto.
        -- intros x up v Ix Iv. unfold s' in Ix. cbn [st_log] in Ix. rewrite Er. unfold s'. cbn [st_mac cr_received st_now].
           apply in_app_or in Ix. destruct Ix as [Ix|[Ix|[]]].
           ++ destruct (J6 x up v Ix Iv) as (A & B & D). split; auto. split; auto. destruct D as [D|D]; [|right; lia].
              destruct (Z_lt_le_dec (rx_end x) (rx_end r - two)) as [G|G]; [right; lia|]. left. rewrite K1. unfold grown. apply in_or_app. right.
              rewrite E3. apply clean_received_in. split; [apply Hrec1; auto|lia].
           ++ injection Ix as <- <-. split; auto. rewrite in_app_iff in Iv. split.
              ** destruct Iv as [Iv|Iv]; [symmetry; apply Fup1; auto|symmetry; apply Sound2; auto].
              ** left. rewrite K1. unfold grown. apply in_or_app. destruct Iv as [Iv|Iv].
                 --- right. rewrite E3. apply clean_received_in. split; [apply Hrec1; auto|lia].
                 --- left. apply -> in_rev. apply in_map_iff. exists v. auto.
        -- rewrite Eu. apply NoDup_app_intro2; auto.
           ++ apply NoDup_app_intro2; auto. intros v Iv X. destruct (Sound2 v X) as (_ & _ & _ & B); auto.
           ++ intros v Iv X. apply in_app_or in X. destruct X as [X|X]; [destruct (Hup1 v X) as (_ & _ & B); auto|destruct (Sound2 v X) as (_ & _ & B & _); auto].
        -- intros q x Iq Ix. rewrite Er. rewrite Bp in Iq. apply in_app_or in Iq. destruct Iq as [Iq|[<-|[]]]; [eapply J8; eauto|apply J9; auto].
        -- rewrite Bf, Er. exact J9.
Qed.
End Peel.
