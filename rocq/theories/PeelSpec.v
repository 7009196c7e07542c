(** What iterated cancellation can decode: peeling the collisions one after the other. *)
From Coq Require Import ZArith List.
From Verif Require Import RxModel RxSpec.
Import ListNotations.
Open Scope Z_scope.

(** A set of packets [X] is closed under peeling: the only packet that is missing from a collision is in it. A
    collision of one packet misses nothing else, so that packets received alone are in it. *)
Definition peel_closed (collisions : list (list Z)) (X : Z -> Prop) : Prop :=
  forall c u, In c collisions -> In u c -> (forall v, In v c -> v <> u -> X v) -> X u.

(** The packets that peeling decodes: the least closed set. *)
Definition peels (collisions : list (list Z)) (u : Z) : Prop := forall X, peel_closed collisions X -> X u.

(** The busy periods that have ended, each as the list of its frames, from the schedule alone. *)
Fixpoint busy_periods (pending busy : list reception) (ops : list rx_op) : list (list reception) :=
  match ops with
  | [] => []
  | OStart t uid tx pow :: l =>
      let r := mkRx uid t (t + tx) pow in
      busy_periods (schedule r pending) (match pending with [] => [r] | _ => busy ++ [r] end) l
  | OFinish :: l =>
      match pending with
      | [_] => busy :: busy_periods [] busy l
      | _ => busy_periods (tl pending) busy l
      end
  end.

Definition packets (p : list reception) : list Z := map rx_uid p.
Definition collisions_of (ops : list rx_op) : list (list Z) := map packets (busy_periods [] [] ops).

(** Frames of the access scheme: [frame u] is the frame in which packet [u] is sent. Packets that meet belong to
    the same frame, and a frame is not longer than what the receiver remembers. *)
Definition framed (memory : Z) (frame : Z -> Z) (ops : list rx_op) : Prop :=
  (forall p a b, In p (busy_periods [] [] ops) -> In a p -> In b p -> frame (rx_uid a) = frame (rx_uid b)) /\
  (forall a b, In a (receptions ops) -> In b (receptions ops) -> frame (rx_uid a) = frame (rx_uid b) ->
     rx_end a < rx_end b + memory).
