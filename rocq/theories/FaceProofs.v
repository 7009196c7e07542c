(** Faces over any network that passes up only what was sent. *)
From Coq Require Import ZArith List Lia Bool Arith Permutation.
From Verif Require Import Base DeviceModel DeviceProofs FaceModel FaceSpec.
Import ListNotations.
Open Scope Z_scope.

Lemma net_notes_app : forall N (a b : list (fnote N)), net_notes (a ++ b) = net_notes a ++ net_notes b.
Proof. intros. apply flat_map_app. Qed.
Lemma gots_app : forall N (a b : list (fnote N)), gots (a ++ b) = gots a ++ gots b.
Proof. intros. apply flat_map_app. Qed.

Section Generic.
Context {S O N X : Type}.
Variable step : S -> O -> option (result (S * list N)).
Variable send : Z -> nat -> Z -> Z -> O.
Variable other : X -> O.
Variable up : N -> option (Z * nat * Z * Z).
Variable ndn : Z.
Variable s0 : S.
Local Notation world := (fworld S).
Local Notation call := (fcall X).

(** The operations that calls become, and the packets made for them. *)
Inductive elab : list call -> list O -> packets -> Prop :=
| ENil : elab [] [] []
| ESend : forall cs ops tab t i b u, elab cs ops tab -> elab (cs ++ [FSend t i b]) (ops ++ [send t i u ndn]) (tab ++ [(u, [Block b])])
| ERaw : forall cs ops tab t i p u, elab cs ops tab -> elab (cs ++ [FRaw t i p]) (ops ++ [send t i u p]) (tab ++ [(u, [Foreign])])
| EDo : forall cs ops tab x, elab cs ops tab -> elab (cs ++ [FDo x]) (ops ++ [other x]) tab.

Definition block_of (tab : packets) (u : Z) : Z := match find_tag u tab with Some (Block b :: _) => b | _ => 0 end.
Definition gets (tab : packets) (ns : list N) : list (Z * nat * Z) :=
  flat_map (fun n => match up n with Some (t, r, u, p) => if p =? ndn then [(t, r, block_of tab u)] else [] | None => [] end) ns.

Record f_inv (cs : list call) (ops : list O) (tab : packets) (w : world) (fns : list (fnote N)) : Prop := {
  fi_elab : elab cs ops tab;
  fi_run : n_run step s0 ops = Some (Ok (fw_net w, net_notes fns));
  fi_next : forall u, In u (map fst (fw_heap w)) -> u < fw_next w;
  fi_tab : forall u hs, In (u, hs) tab -> find_tag u (fw_heap w) = Some hs;
  fi_once : NoDup (map fst tab);
  fi_got : gots fns = gets tab (net_notes fns) }.

Lemma find_in : forall A u (x : A) l, find_tag u l = Some x -> In (u, x) l.
Proof.
  intros A u x l. unfold find_tag. intros E. destruct (find _ l) as [[v y]|] eqn:F; [|discriminate]. injection E as <-.
  apply find_some in F. destruct F as [F E]. apply Z.eqb_eq in E. cbn in E. subst v. exact F.
Qed.
Lemma find_absent : forall A u (l : list (Z * A)), ~ In u (map fst l) -> find_tag u l = None.
Proof. intros A u l H. destruct (find_tag u l) as [x|] eqn:E; [|reflexivity]. exfalso. apply H. apply find_in in E. apply (in_map fst) in E. exact E. Qed.
Lemma in_find : forall A u (x : A) l, NoDup (map fst l) -> In (u, x) l -> find_tag u l = Some x.
Proof.
  intros A u x l. unfold find_tag. induction l as [|[v y] l IH]; intros Nd H; [destruct H|]. cbn [map fst] in Nd. inversion Nd as [|? ? N1 N2]; subst.
  cbn [find fst]. destruct H as [[= -> ->]|H]; [rewrite Z.eqb_refl; reflexivity|].
  destruct (Z.eqb_spec v u) as [->|]; [|auto]. exfalso. apply N1. apply (in_map fst) in H. exact H.
Qed.
Lemma find_cons : forall A u v (x : A) l, find_tag u ((v, x) :: l) = if v =? u then Some x else find_tag u l.
Proof. intros. unfold find_tag. cbn [find fst]. destruct (v =? u); reflexivity. Qed.
Lemma find_removed : forall A u v (l : list (Z * A)), u <> v -> find_tag u (remove_tag v l) = find_tag u l.
Proof.
  intros A u v l Ne. unfold remove_tag. induction l as [|[k x] l IH]; [reflexivity|]. cbn [filter fst]. rewrite find_cons.
  destruct (Z.eqb_spec k v) as [->|]; cbn [negb].
  - rewrite IH. destruct (Z.eqb_spec v u); [congruence|reflexivity].
  - rewrite find_cons, IH. reflexivity.
Qed.
Lemma removed_keys : forall A u v (l : list (Z * A)), In u (map fst (remove_tag v l)) -> In u (map fst l).
Proof. intros A u v l H. apply in_map_iff in H. destruct H as (x & <- & H). apply filter_In in H. apply in_map. apply H. Qed.

(** Getting a block leaves every packet there was as it was. *)
Lemma receive_ok : forall (w : world) u b, (forall v, In v (map fst (fw_heap w)) -> v < fw_next w) -> find_tag u (fw_heap w) = Some [Block b] ->
  exists w', receive_from w u = Ok (w', b) /\ fw_net w' = fw_net w /\ (forall v, In v (map fst (fw_heap w')) -> v < fw_next w') /\
    fw_next w <= fw_next w' /\
    (forall v hs, find_tag v (fw_heap w) = Some hs -> find_tag v (fw_heap w') = Some hs).
Proof.
  intros w u b Hn E. unfold receive_from, copy_packet. rewrite E. cbn [rbind create_packet]. unfold remove_block. cbn [fw_heap].
  rewrite find_cons, Z.eqb_refl. eexists. split; [reflexivity|]. cbn [set_packet fw_net fw_heap fw_next]. split; [reflexivity|]. split.
  { cbn [map fst]. intros v [<-|H]; [lia|]. apply removed_keys in H. cbn [map fst] in H. destruct H as [<-|H]; [lia|]. apply Hn in H. lia. }
  split; [lia|]. intros v hs Hv. pose proof (find_in _ _ _ _ Hv) as Hi. apply (in_map fst) in Hi. apply Hn in Hi. cbn in Hi.
  rewrite find_cons. destruct (Z.eqb_spec (fw_next w) v); [lia|]. rewrite find_removed by lia. rewrite find_cons.
  destruct (Z.eqb_spec (fw_next w) v); [lia|]. exact Hv.
Qed.

Lemma deliver_ok : forall ns (w : world) tab, (forall v, In v (map fst (fw_heap w)) -> v < fw_next w) -> NoDup (map fst tab) ->
  (forall u hs, In (u, hs) tab -> find_tag u (fw_heap w) = Some hs) ->
  (forall n t r u, In n ns -> up n = Some (t, r, u, ndn) -> exists b, In (u, [Block b]) tab) ->
  exists w' out, deliver up ndn w ns = Ok (w', out) /\ fw_net w' = fw_net w /\ net_notes out = ns /\ gots out = gets tab ns /\
    (forall v, In v (map fst (fw_heap w')) -> v < fw_next w') /\ (forall u hs, In (u, hs) tab -> find_tag u (fw_heap w') = Some hs).
Proof.
  induction ns as [|n ns IH]; intros w tab Hn Nd Ht Hp.
  - exists w, []. repeat split; auto.
  - assert (Hp' : forall m t r u, In m ns -> up m = Some (t, r, u, ndn) -> exists b, In (u, [Block b]) tab) by (intros; eapply Hp; [right; eassumption|eassumption]).
    cbn [deliver]. destruct (up n) as [[[[t r] u] p]|] eqn:U.
    + destruct (Z.eqb_spec p ndn) as [->|Np].
      * destruct (Hp n t r u (or_introl eq_refl) U) as [b Hb]. destruct (receive_ok w u b Hn (Ht _ _ Hb)) as (w1 & R & E1 & E2 & _ & E3).
        rewrite R. cbn [rbind]. destruct (IH w1 tab E2 Nd (fun u hs H => E3 _ _ (Ht _ _ H)) Hp') as (w2 & out & D & F1 & F2 & F3 & F4 & F5).
        rewrite D. cbn [rbind]. exists w2, (FNote n :: FGot t r b :: out). split; [reflexivity|]. split; [congruence|]. split; [exact (f_equal (cons n) F2)|].
        split; [|split; assumption]. change (gots (FNote n :: FGot t r b :: out)) with ((t, r, b) :: gots out). rewrite F3.
        unfold gets. cbn [flat_map]. rewrite U, Z.eqb_refl. cbn [app]. f_equal. f_equal. unfold block_of. rewrite (in_find _ _ _ _ Nd Hb). reflexivity.
      * destruct (IH w tab Hn Nd Ht Hp') as (w2 & out & D & F1 & F2 & F3 & F4 & F5). rewrite D. cbn [rbind].
        exists w2, (FNote n :: out). split; [reflexivity|]. split; [congruence|]. split; [exact (f_equal (cons n) F2)|]. split; [|split; assumption].
        change (gots (FNote n :: out)) with (gots out). rewrite F3. unfold gets. cbn [flat_map]. rewrite U.
        destruct (Z.eqb_spec p ndn); [contradiction|reflexivity].
    + destruct (IH w tab Hn Nd Ht Hp') as (w2 & out & D & F1 & F2 & F3 & F4 & F5). rewrite D. cbn [rbind].
      exists w2, (FNote n :: out). split; [reflexivity|]. split; [congruence|]. split; [exact (f_equal (cons n) F2)|]. split; [|split; assumption].
      change (gots (FNote n :: out)) with (gots out). rewrite F3. unfold gets. cbn [flat_map]. rewrite U. reflexivity.
Qed.

Lemma n_run_snoc : forall ops s o, n_run step s (ops ++ [o]) =
  match n_run step s ops with
  | Some (Ok (s1, n1)) => match step s1 o with Some (Ok (s2, n2)) => Some (Ok (s2, n1 ++ n2)) | x => x end
  | x => x end.
Proof.
  induction ops as [|a ops IH]; intros s o; cbn [app n_run].
  - destruct (step s o) as [[[s1 n1]| | |]|]; try reflexivity. rewrite app_nil_r. reflexivity.
  - destruct (step s a) as [[[s1 n1]| | |]|]; try reflexivity. rewrite IH.
    destruct (n_run step s1 ops) as [[[s2 n2]| | |]|]; try reflexivity.
    destruct (step s2 o) as [[[s3 n3]| | |]|]; try reflexivity. rewrite app_assoc. reflexivity.
Qed.

Lemma f_calls_snoc : forall cs (w : world) c, f_calls step send other up ndn w (cs ++ [c]) =
  match f_calls step send other up ndn w cs with
  | Some (Ok (w1, n1)) => match f_call step send other up ndn w1 c with Some (Ok (w2, n2)) => Some (Ok (w2, n1 ++ n2)) | x => x end
  | x => x end.
Proof.
  induction cs as [|a cs IH]; intros w c; cbn [app f_calls].
  - destruct (f_call step send other up ndn w c) as [[[w1 n1]| | |]|]; try reflexivity. rewrite app_nil_r. reflexivity.
  - destruct (f_call step send other up ndn w a) as [[[w1 n1]| | |]|]; try reflexivity. rewrite IH.
    destruct (f_calls step send other up ndn w1 cs) as [[[w2 n2]| | |]|]; try reflexivity.
    destruct (f_call step send other up ndn w2 c) as [[[w3 n3]| | |]|]; try reflexivity. rewrite app_assoc. reflexivity.
Qed.

(** The network, for calls that are [good]: nothing fails, and with the protocol number of NDN only blocks come up. *)
Variable good : list call -> Prop.
Hypothesis good_prefix : forall cs c, good (cs ++ [c]) -> good cs.
Hypothesis net_safe : forall cs ops tab r, elab cs ops tab -> good cs -> NoDup (map fst tab) -> n_run step s0 ops = Some r -> exists x, r = Ok x.
Hypothesis net_blocks : forall cs ops tab s ns n t r u, elab cs ops tab -> good cs -> NoDup (map fst tab) -> n_run step s0 ops = Some (Ok (s, ns)) ->
  In n ns -> up n = Some (t, r, u, ndn) -> exists b, In (u, [Block b]) tab.

Lemma gets_more : forall tab more ns, NoDup (map fst (tab ++ more)) ->
  (forall n t r u, In n ns -> up n = Some (t, r, u, ndn) -> exists b, In (u, [Block b]) tab) -> gets (tab ++ more) ns = gets tab ns.
Proof.
  intros tab more ns Nd H. assert (Nd1 : NoDup (map fst tab)).
  { rewrite map_app in Nd. clear - Nd. induction (map fst tab) as [|x l IH]; [constructor|]. cbn in Nd. inversion Nd as [|? ? A B]; subst.
    constructor; [|auto]. intros C. apply A. apply in_or_app. auto. }
  unfold gets. induction ns as [|n ns IH]; [reflexivity|]. cbn [flat_map]. rewrite IH by (intros; eapply H; [right; eassumption|eassumption]). f_equal.
  destruct (up n) as [[[[t r] u] p]|] eqn:U; [|reflexivity]. destruct (Z.eqb_spec p ndn) as [->|]; [|reflexivity].
  destruct (H n t r u (or_introl eq_refl) U) as [b Hb]. unfold block_of. rewrite (in_find _ _ _ _ Nd1 Hb).
  rewrite (in_find _ u [Block b] (tab ++ more)); [reflexivity|exact Nd|]. apply in_or_app. auto.
Qed.

Lemma operate_ok : forall cs ops tab (w : world) fns c o more w1 r, f_inv cs ops tab w fns -> good (cs ++ [c]) ->
  elab (cs ++ [c]) (ops ++ [o]) (tab ++ more) -> NoDup (map fst (tab ++ more)) ->
  fw_net w1 = fw_net w -> (forall v, In v (map fst (fw_heap w1)) -> v < fw_next w1) ->
  (forall u hs, In (u, hs) (tab ++ more) -> find_tag u (fw_heap w1) = Some hs) ->
  operate step up ndn w1 o = Some r -> exists w2 out, r = Ok (w2, out) /\ f_inv (cs ++ [c]) (ops ++ [o]) (tab ++ more) w2 (fns ++ out).
Proof.
  intros cs ops tab w fns c o more w1 r I G El Nd Ew Hn Ht Op. unfold operate in Op. rewrite Ew in Op.
  destruct (step (fw_net w) o) as [rs|] eqn:St; [|discriminate]. injection Op as <-.
  pose proof (n_run_snoc ops s0 o) as Rn. rewrite (fi_run _ _ _ _ _ I), St in Rn.
  assert (Sa : exists x, rs = Ok x).
  { destruct rs as [x| | |]; [eauto| | |]; exfalso; destruct (net_safe _ _ _ _ El G Nd Rn) as [x Ex]; discriminate. }
  destruct Sa as [[s ns] ->]. cbn [rbind] in *.
  assert (Bl : forall n t r u, In n (net_notes fns ++ ns) -> up n = Some (t, r, u, ndn) -> exists b, In (u, [Block b]) (tab ++ more)).
  { intros n t q u Hi U. eapply (net_blocks _ _ _ _ _ _ _ _ _ El G Nd Rn); eauto. }
  assert (Bl0 : forall n t r u, In n (net_notes fns) -> up n = Some (t, r, u, ndn) -> exists b, In (u, [Block b]) tab).
  { intros n t q u Hi U. eapply (net_blocks _ _ _ _ _ _ _ _ _ (fi_elab _ _ _ _ _ I) (good_prefix _ _ G) (fi_once _ _ _ _ _ I) (fi_run _ _ _ _ _ I)); eauto. }
  destruct (deliver_ok ns (mkW s (fw_next w1) (fw_heap w1)) (tab ++ more) Hn Nd Ht) as (w2 & out & D & F1 & F2 & F3 & F4 & F5).
  { intros n t q u Hi U. eapply Bl; [apply in_or_app; right; exact Hi|exact U]. }
  exists w2, out. rewrite D. split; [reflexivity|]. constructor.
  - exact El.
  - rewrite Rn, net_notes_app, F2, F1. reflexivity.
  - exact F4.
  - exact F5.
  - exact Nd.
  - rewrite gots_app, net_notes_app, F2, F3, (fi_got _ _ _ _ _ I). unfold gets at 3. rewrite flat_map_app. fold (gets (tab ++ more) (net_notes fns)) (gets (tab ++ more) ns).
    rewrite (gets_more tab more (net_notes fns) Nd Bl0). reflexivity.
Qed.

Lemma nodup_snoc : forall (l : list Z) x, NoDup l -> ~ In x l -> NoDup (l ++ [x]).
Proof.
  induction l as [|y l IH]; intros x Nd H; [constructor; [intros []|constructor]|]. cbn. inversion Nd as [|? ? A B]; subst. constructor.
  - intros C. apply in_app_or in C. destruct C as [C|[->|[]]]; [contradiction|]. apply H. left. reflexivity.
  - apply IH; [exact B|]. intros C. apply H. right. exact C.
Qed.

Lemma new_packet : forall cs ops tab (w : world) fns hs, f_inv cs ops tab w fns -> NoDup (map fst (tab ++ [(fw_next w, hs)])).
Proof.
  intros cs ops tab w fns hs I. rewrite map_app. cbn [map fst]. apply nodup_snoc; [apply (fi_once _ _ _ _ _ I)|]. intros H. apply in_map_iff in H.
  destruct H as ([u x] & E & H). cbn in E. subst u. pose proof (fi_tab _ _ _ _ _ I _ _ H) as F. apply find_in in F. apply (in_map fst) in F.
  apply (fi_next _ _ _ _ _ I) in F. cbn in F. lia.
Qed.
Lemma new_found : forall cs ops tab (w : world) fns hs, f_inv cs ops tab w fns ->
  forall u x, In (u, x) (tab ++ [(fw_next w, hs)]) -> find_tag u ((fw_next w, hs) :: fw_heap w) = Some x.
Proof.
  intros cs ops tab w fns hs I u x H. apply in_app_or in H. destruct H as [H|[[= <- <-]|[]]].
  - pose proof (fi_tab _ _ _ _ _ I _ _ H) as F. rewrite find_cons. destruct (Z.eqb_spec (fw_next w) u) as [E|]; [|exact F].
    apply find_in in F. apply (in_map fst) in F. apply (fi_next _ _ _ _ _ I) in F. cbn in F. lia.
  - rewrite find_cons, Z.eqb_refl. reflexivity.
Qed.

Lemma remove_absent : forall A u (l : list (Z * A)), ~ In u (map fst l) -> remove_tag u l = l.
Proof.
  intros A u l. unfold remove_tag. induction l as [|[v x] l IH]; intros H; [reflexivity|]. cbn [filter fst]. destruct (Z.eqb_spec v u) as [->|].
  - exfalso. apply H. left. reflexivity.
  - cbn [negb]. f_equal. apply IH. intros C. apply H. right. exact C.
Qed.

(** A send makes a new packet with the block on it. *)
Lemma do_send_ok : forall cs ops tab (w : world) fns b, f_inv cs ops tab w fns ->
  do_send w b = Ok (mkW (fw_net w) (fw_next w + 1) ((fw_next w, [Block b]) :: fw_heap w), fw_next w).
Proof.
  intros cs ops tab w fns b I. unfold do_send, create_packet, add_header. cbn [fw_heap]. rewrite find_cons, Z.eqb_refl. cbn [rbind].
  unfold set_packet. cbn [fw_net fw_next fw_heap]. do 2 f_equal. f_equal. f_equal. unfold remove_tag. cbn [filter fst]. rewrite Z.eqb_refl. cbn [negb].
  apply remove_absent. intros H. apply (fi_next _ _ _ _ _ I) in H. lia.
Qed.

Lemma call_ok : forall cs ops tab (w : world) fns c r, f_inv cs ops tab w fns -> good (cs ++ [c]) -> f_call step send other up ndn w c = Some r ->
  exists w2 out ops2 tab2, r = Ok (w2, out) /\ f_inv (cs ++ [c]) ops2 tab2 w2 (fns ++ out).
Proof.
  intros cs ops tab w fns c r I G Fc. destruct c as [t i b|t i p|x]; cbn [f_call] in Fc.
  - rewrite (do_send_ok _ _ _ _ _ b I) in Fc.
    edestruct (operate_ok cs ops tab w fns (FSend t i b) (send t i (fw_next w) ndn) [(fw_next w, [Block b])]) as (w2 & out & -> & J);
      [exact I|exact G| | | | | |exact Fc|eauto 8].
    + constructor. apply I.
    + eapply new_packet; eauto.
    + reflexivity.
    + cbn [fw_heap fw_next map fst]. intros v [<-|H]; [lia|]. apply (fi_next _ _ _ _ _ I) in H. lia.
    + cbn [fw_heap]. eapply new_found; eauto.
  - unfold create_packet in Fc.
    edestruct (operate_ok cs ops tab w fns (FRaw t i p) (send t i (fw_next w) p) [(fw_next w, [Foreign])]) as (w2 & out & -> & J);
      [exact I|exact G| | | | | |exact Fc|eauto 8].
    + constructor. apply I.
    + eapply new_packet; eauto.
    + reflexivity.
    + cbn [fw_heap fw_next map fst]. intros v [<-|H]; [lia|]. apply (fi_next _ _ _ _ _ I) in H. lia.
    + cbn [fw_heap]. eapply new_found; eauto.
  - edestruct (operate_ok cs ops tab w fns (FDo x) (other x) []) as (w2 & out & -> & J);
      [exact I|exact G| | | | | |exact Fc|eauto 8]; rewrite ?app_nil_r.
    + constructor. apply I.
    + apply I.
    + reflexivity.
    + apply I.
    + apply I.
Qed.

Theorem faces_inv : forall cs r, good cs -> f_calls step send other up ndn (fw_init s0) cs = Some r ->
  exists w fns ops tab, r = Ok (w, fns) /\ f_inv cs ops tab w fns.
Proof.
  intros cs. induction cs as [|c cs IH] using rev_ind; intros r G R.
  - cbn in R. injection R as <-. exists (fw_init s0), [], [], []. split; [reflexivity|]. constructor; cbn; auto; try constructor; intros; contradiction.
  - rewrite f_calls_snoc in R. destruct (f_calls step send other up ndn (fw_init s0) cs) as [r1|] eqn:R1; [|discriminate].
    destruct (IH _ (good_prefix _ _ G) eq_refl) as (w & fns & ops & tab & -> & I).
    destruct (f_call step send other up ndn w c) as [r2|] eqn:Fc; [|discriminate].
    destruct (call_ok _ _ _ _ _ _ _ I G Fc) as (w2 & out & ops2 & tab2 & -> & J). injection R as <-. eauto 8.
Qed.

(** ** Reading an elaboration *)
Lemma elab_in : forall cs ops tab, elab cs ops tab -> forall u hs, In (u, hs) tab ->
  (exists t i b, hs = [Block b] /\ In (FSend t i b) cs /\ In (send t i u ndn) ops) \/ (exists t i p, hs = [Foreign] /\ In (FRaw t i p) cs /\ In (send t i u p) ops).
Proof.
  induction 1 as [|cs ops tab t i b v E IH|cs ops tab t i p v E IH|cs ops tab x E IH]; intros u hs H; [destruct H| | |].
  - apply in_app_or in H. destruct H as [H|[[= <- <-]|[]]].
    + destruct (IH _ _ H) as [(t' & i' & b' & -> & A & B)|(t' & i' & p' & -> & A & B)]; [left|right]; repeat eexists; apply in_or_app; left; eassumption.
    + left. repeat eexists; apply in_or_app; right; left; reflexivity.
  - apply in_app_or in H. destruct H as [H|[[= <- <-]|[]]].
    + destruct (IH _ _ H) as [(t' & i' & b' & -> & A & B)|(t' & i' & p' & -> & A & B)]; [left|right]; repeat eexists; apply in_or_app; left; eassumption.
    + right. repeat eexists; apply in_or_app; right; left; reflexivity.
  - destruct (IH _ _ H) as [(t' & i' & b' & -> & A & B)|(t' & i' & p' & -> & A & B)]; [left|right]; repeat eexists; apply in_or_app; left; eassumption.
Qed.

Lemma gots_got : forall t r b (fns : list (fnote N)), In (FGot t r b) fns -> In (t, r, b) (gots fns).
Proof. intros t r b fns H. apply in_flat_map. eexists. split; [exact H|]. left. reflexivity. Qed.

Lemma got_up : forall cs ops tab (w : world) fns t r b, f_inv cs ops tab w fns -> good cs -> In (FGot t r b) fns ->
  exists n u, In n (net_notes fns) /\ up n = Some (t, r, u, ndn) /\ In (u, [Block b]) tab.
Proof.
  intros cs ops tab w fns t r b I G H. apply gots_got in H. rewrite (fi_got _ _ _ _ _ I) in H. apply in_flat_map in H. destruct H as (n & Hn & H).
  destruct (up n) as [[[[t' r'] u] p]|] eqn:U; [|destruct H]. destruct (Z.eqb_spec p ndn) as [->|]; [|destruct H]. destruct H as [[= -> -> <-]|[]].
  destruct (net_blocks _ _ _ _ _ _ _ _ _ (fi_elab _ _ _ _ _ I) G (fi_once _ _ _ _ _ I) (fi_run _ _ _ _ _ I) Hn U) as [b Hb].
  exists n, u. split; [exact Hn|]. split; [exact U|]. unfold block_of. rewrite (in_find _ _ _ _ (fi_once _ _ _ _ _ I) Hb). exact Hb.
Qed.

Lemma elab_blocks : forall cs ops tab, elab cs ops tab ->
  blocks_sent cs = flat_map (fun e => match snd e with Block b :: _ => [b] | _ => [] end) tab.
Proof.
  unfold blocks_sent. induction 1 as [|cs ops tab t i b v E IH|cs ops tab t i p v E IH|cs ops tab x E IH]; [reflexivity| | |]; rewrite !flat_map_app, IH; cbn; rewrite ?app_nil_r; reflexivity.
Qed.

(** ** Sends can be told from the rest *)
Variable as_send : O -> option (Z * nat * Z * Z).
Hypothesis as_send_send : forall t i u p, as_send (send t i u p) = Some (t, i, u, p).
Hypothesis as_send_other : forall x, as_send (other x) = None.

Lemma elab_send : forall cs ops tab, elab cs ops tab -> forall o t i u p, In o ops -> as_send o = Some (t, i, u, p) ->
  (exists b, In (u, [Block b]) tab /\ In (FSend t i b) cs /\ p = ndn) \/ (In (u, [Foreign]) tab /\ In (FRaw t i p) cs).
Proof.
  induction 1 as [|cs ops tab t i b v E IH|cs ops tab t i p v E IH|cs ops tab x E IH]; intros o t' i' u' p' H As; [destruct H| | |];
    apply in_app_or in H; destruct H as [H|[<-|[]]].
  1, 3, 5: destruct (IH _ _ _ _ _ H As) as [(b' & A & B & C)|(A & B)]; [left; exists b'|right]; repeat split; try (apply in_or_app; left); assumption.
  - rewrite as_send_send in As. injection As as <- <- <- <-. left. exists b. repeat split; apply in_or_app; right; left; reflexivity.
  - rewrite as_send_send in As. injection As as <- <- <- <-. right. split; apply in_or_app; right; left; reflexivity.
  - rewrite as_send_other in As. discriminate.
Qed.

Definition all_keys (ops : list O) : list Z := flat_map (fun o => match as_send o with Some (_, _, u, _) => [u] | None => [] end) ops.
Definition keys (i : nat) (ops : list O) : list Z :=
  flat_map (fun o => match as_send o with Some (_, j, u, p) => if (j =? i)%nat && (p =? ndn) then [u] else [] | None => [] end) ops.

Lemma elab_keys : forall cs ops tab, elab cs ops tab -> all_keys ops = map fst tab.
Proof.
  unfold all_keys. induction 1 as [|cs ops tab t i b v E IH|cs ops tab t i p v E IH|cs ops tab x E IH]; [reflexivity| | |]; rewrite !flat_map_app, IH; cbn [flat_map];
    rewrite ?as_send_send, ?as_send_other, ?map_app; cbn; rewrite ?app_nil_r; reflexivity.
Qed.

Lemma block_of_more : forall tab more us, NoDup (map fst (tab ++ more)) -> incl us (map fst tab) -> map (block_of (tab ++ more)) us = map (block_of tab) us.
Proof.
  intros tab more us Nd Hi. apply map_ext_in. intros u Hu. apply Hi in Hu. apply in_map_iff in Hu. destruct Hu as ([v hs] & E & Hu). cbn in E. subst v.
  unfold block_of. rewrite (in_find _ u hs (tab ++ more) Nd) by (apply in_or_app; auto). rewrite (in_find _ u hs tab); [reflexivity| |exact Hu].
  rewrite map_app in Nd. clear - Nd. induction (map fst tab) as [|x l IH]; [constructor|]. cbn in Nd. inversion Nd as [|? ? A B]; subst.
  constructor; [|auto]. intros C. apply A. apply in_or_app. auto.
Qed.

Lemma keys_in_all : forall i ops, incl (keys i ops) (all_keys ops).
Proof.
  intros i ops u H. unfold keys in H. apply in_flat_map in H. destruct H as (o & Ho & H). unfold all_keys. apply in_flat_map. exists o. split; [exact Ho|].
  destruct (as_send o) as [[[[t j] v] p]|]; [|exact H]. destruct (_ && _); [exact H|destruct H].
Qed.

(** The blocks of one device are those of its packets with the number of NDN. *)
Lemma elab_from : forall i cs ops tab, elab cs ops tab -> NoDup (map fst tab) -> (forall t j p, In (FRaw t j p) cs -> p <> ndn) ->
  blocks_from i cs = map (block_of tab) (keys i ops).
Proof.
  intros i cs ops tab E. induction E as [|cs ops tab t j b v E IH|cs ops tab t j p v E IH|cs ops tab x E IH]; intros Nd Ap; [reflexivity| | |];
    unfold blocks_from, keys; rewrite !flat_map_app; fold (blocks_from i cs) (keys i ops); cbn [flat_map]; rewrite ?as_send_send, ?as_send_other, ?app_nil_r.
  - assert (Nd0 : NoDup (map fst tab)).
    { rewrite map_app in Nd. clear - Nd. induction (map fst tab) as [|x l IH]; [constructor|]. cbn in Nd. inversion Nd as [|? ? A B]; subst.
      constructor; [|auto]. intros C. apply A. apply in_or_app. auto. }
    rewrite map_app, block_of_more; [|exact Nd|rewrite <- (elab_keys _ _ _ E); apply keys_in_all]. rewrite Z.eqb_refl, andb_true_r.
    rewrite <- IH; [|exact Nd0|intros; apply (Ap t0 j0 p); apply in_or_app; auto]. f_equal. destruct (j =? i)%nat; [|reflexivity]. cbn [map].
    unfold block_of. rewrite (in_find _ v [Block b] (tab ++ [(v, [Block b])]) Nd); [reflexivity|]. apply in_or_app. right. left. reflexivity.
  - assert (Nd0 : NoDup (map fst tab)).
    { rewrite map_app in Nd. clear - Nd. induction (map fst tab) as [|x l IH]; [constructor|]. cbn in Nd. inversion Nd as [|? ? A B]; subst.
      constructor; [|auto]. intros C. apply A. apply in_or_app. auto. }
    destruct (Z.eqb_spec p ndn) as [->|]; [exfalso; apply (Ap t j ndn); [apply in_or_app; right; left; reflexivity|reflexivity]|].
    rewrite andb_false_r, app_nil_r. rewrite block_of_more; [|exact Nd|rewrite <- (elab_keys _ _ _ E); apply keys_in_all].
    apply IH; [exact Nd0|intros; apply (Ap t0 j0 p0); apply in_or_app; auto].
  - apply IH; [exact Nd|]. intros t0 j0 p0 H0. apply (Ap t0 j0 p0). apply in_or_app. auto.
Qed.
End Generic.

(** Part of the packets, each once. *)
Lemma part_of : forall (us ks : list Z), NoDup us -> incl us ks -> exists rest, Permutation (us ++ rest) ks.
Proof.
  induction us as [|u us IH]; intros ks Nd Hi; [exists ks; reflexivity|]. inversion Nd as [|? ? N1 N2]; subst.
  destruct (in_split u ks) as (k1 & k2 & E); [apply Hi; left; reflexivity|].
  destruct (IH (k1 ++ k2) N2) as [rest P].
  { intros v Hv. assert (In v ks) by (apply Hi; right; exact Hv). rewrite E in H. apply in_app_or in H. apply in_or_app. destruct H as [H|[<-|H]]; auto. contradiction. }
  exists rest. rewrite E. cbn. rewrite P. apply Permutation_middle.
Qed.

Definition block_keys (tab : packets) : list Z := flat_map (fun e => match snd e with Block _ :: _ => [fst e] | _ => [] end) tab.
Lemma keys_blocks : forall tab, NoDup (map fst tab) ->
  flat_map (fun e => match snd e with Block b :: _ => [b] | _ => [] end) tab = map (block_of tab) (block_keys tab).
Proof.
  intros tab Nd. assert (G : forall l, incl l tab -> flat_map (fun e => match snd e with Block b :: _ => [b] | _ => [] end) l = map (block_of tab) (block_keys l)).
  { induction l as [|[u hs] l IH]; intros Hi; [reflexivity|]. unfold block_keys. cbn [flat_map]. rewrite map_app. fold (block_keys l).
    rewrite IH by (intros x Hx; apply Hi; right; exact Hx). f_equal. destruct hs as [|[b|] hs]; cbn [snd fst map]; try reflexivity.
    unfold block_of. rewrite (in_find _ u (Block b :: hs) tab Nd); [reflexivity|]. apply Hi. left. reflexivity. }
  apply G. apply incl_refl.
Qed.

Lemma sub_blocks : forall tab us, NoDup (map fst tab) -> NoDup us -> (forall u, In u us -> exists b, In (u, [Block b]) tab) ->
  exists rest, Permutation (map (block_of tab) us ++ map (block_of tab) rest) (flat_map (fun e => match snd e with Block b :: _ => [b] | _ => [] end) tab) /\
    Permutation (us ++ rest) (block_keys tab).
Proof.
  intros tab us Nd Nu H. destruct (part_of us (block_keys tab) Nu) as [rest P].
  { intros u Hu. destruct (H u Hu) as [b Hb]. unfold block_keys. apply in_flat_map. eexists. split; [exact Hb|]. left. reflexivity. }
  exists rest. split; [|exact P]. rewrite (keys_blocks tab Nd), <- map_app. apply Permutation_map. exact P.
Qed.
