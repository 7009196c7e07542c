(** Theorems about the traffic of the Poisson and LoRa helpers. *)
From Coq Require Import ZArith QArith Qround List Lia Bool.
From Verif Require Import Base HelpersModel TrafficModel TrafficSpec TrafficProofs.
Import ListNotations.
Open Scope Z_scope.

(** * C98: Poisson traffic *)

Definition pending (s : onoff) : Prop := oo_send s <> None \/ oo_toggle s <> None.

(** After any number of events, the packets sent are the first so many departures of the process whose gaps are the
    draws, each at its time to the ns; the next event is the next departure or belongs to the last; and the
    application ends when, and only when, the limit on the bytes leaves no room. *)
Theorem poisson_traffic : forall ns_of bits_of packet max start draws, reads ns_of -> counts bits_of ->
  0 < packet < 2 ^ 29 -> 0 <= max /\ max + packet <= 2 ^ 64 -> (forall i, (0 <= draws i)%Q) ->
  let c := poisson_cfg packet max draws in let gaps := fun i => ns_of (draws i) in
  forall n, exists s k, app_run ns_of bits_of c n (start_application ns_of bits_of c start) = Ok s /\
    oo_sent s = departures gaps start k /\
    (forall i, (i < k)%nat -> room max packet i /\ leaves gaps start i <= oo_now s) /\
    (k = ((n + 1) / 3)%nat \/ (k < (n + 1) / 3)%nat /\ ~ room max packet k) /\
    (pending s -> room max packet k /\ oo_now s <= leaves gaps start k) /\
    (~ pending s -> ~ room max packet k).
Proof.
  intros ns_of bits_of packet max start draws R B Hp Hm Hd c gaps n.
  assert (G : forall i, 0 <= gaps i) by (intros i; apply (ns_nonneg ns_of R), Hd).
  assert (Mono : forall i k, (i <= k)%nat -> leaves gaps start i <= leaves gaps start k).
  { intros i k H. induction H; [lia|]. cbn [leaves]. specialize (G (Datatypes.S m)). lia. }
  assert (Room : forall i k, (i <= k)%nat -> room max packet k -> room max packet i) by (unfold room; intros i k H [X|X]; [tauto|right; nia]).
  destruct (phase_run ns_of bits_of R B packet max start draws Hp Hm n) as (s & E & P). exists s.
  destruct P as [(k & Hn & W & O)|[(k & Hn & W & O)|[(k & Hn & W & O)|(k & Hn & W & O & N)]]].
  - exists k. split; [exact E|]. destruct W as (now & la & u & ons & -> & W1 & W2). cbn [oo_sent oo_now]. split; [reflexivity|].
    split; [intros i Hi; split; [apply (Room i k ltac:(lia) O)|rewrite W2 by lia; apply Mono; lia]|].
    split; [left; rewrite Hn; apply (Nat.div_unique _ _ _ 1); lia|]. unfold pending. cbn [oo_send oo_toggle].
    split; [intros _; split; [exact O|specialize (G k); change (now + gaps k = leaves gaps start k) in W1; lia]|intros X; exfalso; apply X; right; discriminate].
  - exists k. split; [exact E|]. destruct W as (u & u' & w & ons & -> & L). cbn [oo_sent oo_now]. split; [reflexivity|].
    split; [intros i Hi; split; [apply (Room i k ltac:(lia) O)|apply Mono; lia]|].
    split; [left; rewrite Hn; apply (Nat.div_unique _ _ _ 2); lia|]. unfold pending. cbn [oo_send oo_toggle].
    split; [intros _; split; [exact O|apply Z.le_refl]|intros X; exfalso; apply X; right; discriminate].
  - exists (Datatypes.S k). split; [exact E|]. destruct W as (u & u' & w & ons & -> & L). cbn [oo_sent oo_now]. split; [reflexivity|].
    split; [intros i Hi; split; [apply (Room i (Datatypes.S k) ltac:(lia) O)|apply Mono; lia]|].
    split; [left; rewrite Hn; apply (Nat.div_unique _ _ _ 0); lia|]. unfold pending. cbn [oo_send oo_toggle].
    split; [intros _; split; [exact O|apply (Mono k (Datatypes.S k)); lia]|intros X; exfalso; apply X; right; discriminate].
  - exists (Datatypes.S k). split; [exact E|]. destruct W as (A1 & A2 & A3 & A4 & _). split; [exact A3|]. rewrite A4.
    split; [intros i Hi; split; [apply (Room i k ltac:(lia) O)|apply Mono; lia]|].
    split; [|unfold pending; rewrite A1, A2; split; [intros [X|X]; contradiction|intros _; exact N]].
    destruct (Nat.eq_dec (Datatypes.S k) ((n + 1) / 3)) as [X|X]; [left; exact X|right]. split; [|exact N].
    assert (Datatypes.S k <= (n + 1) / 3)%nat; [|lia]. apply Nat.div_le_lower_bound; lia.
Qed.
Print Assumptions poisson_traffic.

(** Three draws of 5, 0 and 2 s: one packet after 5 s, one right after it, the third after 7 s. *)
Definition cut (q : Q) : Z := Qfloor (q * inject_Z (10 ^ 9)).
Definition rounded (q : Q) : Z := Qfloor (q * inject_Z (10 ^ 9) + (1 # 2)).
Definition exact_bits (ns rate : Z) : Z := ns * rate / 10 ^ 9.
Definition some_draws (i : nat) : Q := match i with O => 5 | 1%nat => 0 | _ => 2 end%Q.
Example poisson_traffic_case : rmap oo_sent (app_run cut exact_bits (poisson_cfg 1000 0 some_draws) 9 (start_application cut exact_bits (poisson_cfg 1000 0 some_draws) 100))
  = Ok [5000000100; 5000000100; 7000000100].
Proof. vm_compute. reflexivity. Qed.
(** Limited to 1500 bytes: two packets and no more, however long it runs. *)
Example poisson_traffic_limit : rmap oo_sent (app_run cut exact_bits (poisson_cfg 1000 1500 some_draws) 900 (start_application cut exact_bits (poisson_cfg 1000 1500 some_draws) 100))
  = Ok [5000000100; 5000000100].
Proof. vm_compute. reflexivity. Qed.

(** The size of the packets has to be limited: 2^31 bytes are 0 bits in 32 bits, sent at once, while the on period is
    rounded up to a ns, so packets leave without end at the first departure. *)
Theorem poisson_traffic_refuted : ~ (forall ns_of bits_of packet draws, reads ns_of -> counts bits_of -> 0 < packet < 2 ^ 32 ->
  (forall i, (0 <= draws i)%Q) -> let c := poisson_cfg packet 0 draws in
  forall n s, app_run ns_of bits_of c n (start_application ns_of bits_of c 0) = Ok s ->
    exists k, oo_sent s = departures (fun i => ns_of (draws i)) 0 k).
Proof.
  intros C. specialize (C rounded exact_bits (2 ^ 31) (fun _ => 1%Q)).
  assert (X : exists s, app_run rounded exact_bits (poisson_cfg (2 ^ 31) 0 (fun _ => 1%Q)) 5 (start_application rounded exact_bits (poisson_cfg (2 ^ 31) 0 (fun _ => 1%Q)) 0) = Ok s /\
    oo_sent s = [1000000000; 1000000000; 1000000000; 1000000000]).
  { eexists. split; vm_compute; reflexivity. }
  destruct X as (s & E & F). destruct (C (or_intror (fun q => eq_refl))) with (n := 5%nat) (s := s) as (k & K); [|lia|intros; discriminate|exact E|].
  - intros ns rate Hn Hr. unfold exact_bits. pose proof (Z.div_pos (ns * rate) (10 ^ 9) ltac:(nia) ltac:(lia)). lia.
  - rewrite F in K. assert (L : k = 4%nat) by (apply (f_equal (@length Z)) in K; unfold departures in K; rewrite map_length, seq_length in K; cbn in K; lia).
    subst k. vm_compute in K. discriminate.
Qed.
Print Assumptions poisson_traffic_refuted.

(** * C99: LoRa traffic *)

Definition lora_asked (rate header payload frames : Z) : Prop :=
  0 < payload /\ payload * 8 < 2 ^ 32 /\ 0 <= header < 2 ^ 16 /\ 0 <= frames < 2 ^ 64 /\ 0 < rate <= 10 ^ 9.

Lemma lora_cfg_is : forall rate header payload frames, lora_asked rate header payload frames -> payload * frames < 2 ^ 64 ->
  lora_cfg rate header payload frames = Ok (mkOnOff payload (rate * payload / (payload + header)) (payload * frames) (fun _ => inject_Z 1000) (fun _ => 0%Q)).
Proof.
  intros rate header payload frames (H1 & H2 & H3 & H4 & H5) H6. unfold lora_cfg, lora_sending_rate, lora_max_bytes, u64, u32, u16.
  rewrite (Z.mod_small header), (Z.mod_small frames), (Z.mod_small rate) by lia. rewrite (Z.mod_small (payload + header)) by lia.
  replace (payload + header =? 0) with false by (symmetry; apply Z.eqb_neq; lia). cbn [rbind].
  rewrite (Z.mod_small (rate * payload)) by nia. rewrite (Z.mod_small (payload * frames)) by nia. reflexivity.
Qed.

(** The application never aborts.  Its gaps are right for the rate it was given; it has sent no more frames than asked for
    (0: no limit), has ended only when it has sent them all, and does send them all. *)
Theorem lora_traffic : forall ns_of bits_of rate header payload frames start, reads ns_of -> counts bits_of ->
  lora_asked rate header payload frames -> payload + header <= rate * payload -> payload * frames < 2 ^ 64 ->
  exists c, lora_cfg rate header payload frames = Ok c /\ ao_packet c = payload /\ ao_rate c = rate * payload / (payload + header) /\
  (forall n, exists s, app_run ns_of bits_of c n (start_application ns_of bits_of c start) = Ok s /\
     spaced (gap_right (8 * payload) (ao_rate c) (10 ^ 12)) start (oo_sent s) /\
     (frames <> 0 -> Z.of_nat (length (oo_sent s)) <= frames) /\
     (~ pending s <-> frames <> 0 /\ Z.of_nat (length (oo_sent s)) = frames)) /\
  (forall k, frames = 0 \/ Z.of_nat k <= frames -> exists n s,
     app_run ns_of bits_of c n (start_application ns_of bits_of c start) = Ok s /\ length (oo_sent s) = k).
Proof.
  intros ns_of bits_of rate header payload frames start R B A W F. rewrite (lora_cfg_is _ _ _ _ A F). eexists. split; [reflexivity|].
  destruct A as (H1 & H2 & H3 & H4 & H5). cbn [ao_packet ao_rate]. split; [reflexivity|]. split; [reflexivity|].
  assert (Hr : 0 < rate * payload / (payload + header) <= 10 ^ 9).
  { split; [assert (1 <= rate * payload / (payload + header)) by (apply Z.div_le_lower_bound; lia); lia|].
    apply Z.le_trans with (rate * (payload + header) / (payload + header)); [apply Z.div_le_mono; nia|rewrite Z.div_mul by lia; lia]. }
  split.
  - intros n. destruct (alive_run ns_of bits_of R B payload (rate * payload / (payload + header)) frames start ltac:(lia) Hr ltac:(lia) n) as (s & E & A & S).
    exists s. split; [exact E|]. split; [exact S|]. destruct A as [A|A].
    + assert (X : frames = 0 \/ Z.of_nat (length (oo_sent s)) < frames) by (eapply alive_count; try eassumption; lia). split; [lia|]. split; [|lia].
      intros N. exfalso. apply N. destruct A as (m & [(ts & u & tt & u' & A1 & _)|(u & _ & A2 & _)]); unfold pending; [left; rewrite A1|right; rewrite A2]; discriminate.
    + pose proof A as (A1 & A2 & A3 & A4). split; [lia|]. unfold pending. rewrite A1, A2. split; [intros _; lia|intros _ [X|X]; contradiction].
  - intros k Hk. destruct (kth_packet ns_of bits_of R B payload _ frames start ltac:(lia) Hr ltac:(lia) k Hk) as (n & s & E & L & _). eauto.
Qed.
Print Assumptions lora_traffic.

(** On the link, the frame and its header never pass the sending rate the helper was given. *)
Theorem lora_link_use : forall rate header payload t t', 0 < payload -> 0 <= header -> 0 < rate -> t <= t' ->
  gap_right (8 * payload) (rate * payload / (payload + header)) (10 ^ 12) t t' ->
  8 * (payload + header) * 10 ^ 9 < rate * (t' - t + 1).
Proof.
  intros rate header payload t t' Hp Hh Hr Ht [G _]. pose proof (Z.mul_div_le (rate * payload) (payload + header) ltac:(lia)) as L.
  set (r := rate * payload / (payload + header)) in *. set (g := t' - t + 1) in *. assert (0 < g) by (unfold g; lia).
  assert (X : 8 * payload * 10 ^ 9 * (payload + header) < r * g * (payload + header)) by nia.
  assert (Y : r * g * (payload + header) <= rate * payload * g) by nia.
  assert (Z0 : payload * (8 * (payload + header) * 10 ^ 9) < payload * (rate * g)) by nia. nia.
Qed.
Print Assumptions lora_link_use.

(** The default settings: a frame of 55 bytes at 366 bit/s, about every 1.2 s. *)
Definition lora_default (frames : Z) : onoff_cfg := mkOnOff 55 366 (55 * frames) (fun _ => inject_Z 1000) (fun _ => 0%Q).
Example lora_traffic_case : lora_cfg 500 20 55 3 = Ok (lora_default 3) /\
  rmap oo_sent (app_run rounded exact_bits (lora_default 3) 500 (start_application rounded exact_bits (lora_default 3) 0)) = Ok [1202185792; 2404371584; 3606557376].
Proof. vm_compute. split; reflexivity. Qed.
(** The on period ends after 1000 s, during the 832nd frame; its gap is longer by part of a bit. *)
Example lora_traffic_interrupted :
  rmap (fun s => (length (oo_sent s), nth 831 (oo_sent s) 0 - nth 830 (oo_sent s) 0))
    (app_run rounded exact_bits (lora_default 0) 900 (start_application rounded exact_bits (lora_default 0) 0)) = Ok (897%nat, 1202186083).
Proof. vm_compute. reflexivity. Qed.

(** So many frames that their bytes pass 64 bits: there is no limit at all, or a lower one. *)
Theorem lora_frames_refuted : ~ (forall ns_of bits_of rate header payload frames start c, reads ns_of -> counts bits_of ->
  lora_asked rate header payload frames -> frames <> 0 -> payload + header <= rate * payload -> lora_cfg rate header payload frames = Ok c ->
  forall n s, app_run ns_of bits_of c n (start_application ns_of bits_of c start) = Ok s -> Z.of_nat (length (oo_sent s)) <= frames).
Proof.
  intros C. assert (Q : counts exact_bits).
  { intros ns rate Hn Hr. unfold exact_bits. pose proof (Z.div_pos (ns * rate) (10 ^ 9) ltac:(nia) ltac:(lia)). lia. }
  assert (A : lora_asked 500 20 64 0) by (unfold lora_asked; lia).
  destruct (lora_traffic cut exact_bits 500 20 64 0 0 (or_introl (fun q => eq_refl)) Q A ltac:(lia) ltac:(lia)) as (c & E & _ & _ & _ & K).
  destruct (K (Z.to_nat (2 ^ 58 + 1)) (or_introl eq_refl)) as (n & s & En & L).
  assert (E' : lora_cfg 500 20 64 (2 ^ 58) = Ok c) by (rewrite <- E; reflexivity).
  pose proof (C cut exact_bits 500 20 64 (2 ^ 58) 0 c (or_introl (fun q => eq_refl)) Q ltac:(unfold lora_asked; lia) ltac:(lia) ltac:(lia) E' n s En) as X.
  rewrite L, Z2Nat.id in X by lia. lia.
Qed.
Print Assumptions lora_frames_refuted.

(** A sending rate so low that no whole bit per second is left for the payload: the application's rate is 0 (and its gaps a
    division by it). *)
Theorem lora_rate_refuted : ~ (forall rate header payload frames c, lora_asked rate header payload frames ->
  lora_cfg rate header payload frames = Ok c -> 0 < ao_rate c).
Proof.
  intros C. specialize (C 1 20 55 0 (mkOnOff 55 0 0 (fun _ => inject_Z 1000) (fun _ => 0%Q)) ltac:(unfold lora_asked; lia) eq_refl). cbn in C. lia.
Qed.
Print Assumptions lora_rate_refuted.
