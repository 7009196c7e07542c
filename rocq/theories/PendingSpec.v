(** Who waits for the Data, told from what came and what left; how often a name may be asked for. *)
From Coq Require Import ZArith List Bool.
From Verif Require Import GeoTagModel PendingModel.
Import ListNotations.
Open Scope Z_scope.

Definition trace := list (pop * list pev).

(** Who waits, and until when: whoever asked since the Data last came or the entry was last closed, and got no Nack. *)
Definition next_waiting (w : face -> option Z) (x : pop * list pev) : face -> option Z :=
  fun g =>
    if existsb (fun v => match v with AClosed => true | _ => false end) (snd x) then None
    else if existsb (fun v => match v with ANacked f _ => face_eqb f g | _ => false end) (snd x) then None
    else match fst x with
         | Ask t f _ life => if face_eqb f g then Some (t + life) else w g
         | Answer _ _ => None
         | Refuse _ _ _ => w g
         end.
Definition waiting (tr : trace) : face -> option Z := fold_left next_waiting tr (fun _ => None).
Definition waits (tr : trace) (t : Z) (g : face) : Prop := exists x, waiting tr g = Some x /\ t < x.

(** Time does not go back. *)
Definition in_order (ops : list pop) : Prop := forall a o b o' c, ops = a ++ o :: b ++ o' :: c -> pop_time o <= pop_time o'.

(** When an Interest for the name was sent. *)
Definition sent_at (tr : trace) : list Z :=
  flat_map (fun x => flat_map (fun v => match v with ASent _ _ => [pop_time (fst x)] | _ => [] end) (snd x)) tr.

(** The least time from the first to the k-th Interest after it, in milliseconds: 10, 20, 40, 80, 160, then 250 each. *)
Definition least_gap (k : nat) : Z := Z.min 250 (10 * 2 ^ Z.of_nat k).
Definition least_time (k : nat) : Z := fold_right Z.add 0 (map least_gap (seq 0 k)).
Definition ms (x : Z) : Z := x * 1000000.

(** Somebody waits whenever something comes, but for the first. *)
Definition wanted (tr : trace) : Prop := forall a x b, tr = a ++ x :: b -> a <> [] -> exists g, waits a (pop_time (fst x)) g.

(** Patient consumers: no Nack comes, and each Interest lives at least 250 ms. *)
Definition patient (o : pop) : Prop := match o with Ask _ _ _ life => ms 250 <= life | Answer _ _ => True | Refuse _ _ _ => False end.

(** What is known of the upstreams: asked ([Some None]), or asked and answered by a Nack ([Some (Some reason)]). *)
Definition next_asked (u : face -> option (option Z)) (x : pop * list pev) : face -> option (option Z) :=
  fun g =>
    if existsb (fun v => match v with ASent f _ => face_eqb f g | _ => false end) (snd x) then Some None
    else match fst x with
         | Refuse _ f reason => if face_eqb f g && negb (ad_hoc f) then option_map (fun _ => Some reason) (u g) else u g
         | _ => u g
         end.
Definition upstream (tr : trace) : face -> option (option Z) := fold_left next_asked tr (fun _ => None).

(** The least severe of some reasons: the smallest number but for 0, which is no reason. *)
Definition least_reason (given : Z -> Prop) (r : Z) : Prop :=
  (given r /\ r <> 0 /\ forall y, given y -> y <> 0 -> r <= y) \/ (r = 0 /\ forall y, given y -> y = 0).

(** Faces on which the Interest may go on: not where it came from, unless that is the ground, and not out of scope. *)
Definition open_to (scope : face -> bool) (f g : face) : Prop := (g <> f \/ g = GroundFace) /\ scope g = false.
