(** What Aloha should do, in terms of reception intervals only. *)
From Coq Require Import ZArith List.
From Verif Require Import Base RxModel RxSpec.
Import ListNotations.
Open Scope Z_scope.

(** [t] is the least multiple of [d] not before [now]. *)
Definition next_boundary (d now t : Z) : Prop :=
  (exists k, t = k * d) /\ now <= t /\ forall k, now <= k * d -> t <= k * d.

(** [b] is in the busy period of [a] as far as it has got at the end of [a]: it started before, and from its
    start to the end of [a] there is no instant that no frame spans. *)
Definition same_busy (all : list reception) (a b : reception) : Prop :=
  rx_start b < rx_end a /\
  forall t, rx_start b < t < rx_end a -> exists r, In r all /\ rx_start r < t < rx_end r.

Definition total (l : list reception) : Z := fold_right (fun r s => rx_pow r + s) 0 l.

(** [others] lists the other members of the busy period of [a]. *)
Definition others_of (all : list reception) (a : reception) (others : list reception) : Prop :=
  NoDup others /\ forall b, In b others <-> In b all /\ b <> a /\ same_busy all a b.

(** A tie: a reception starts at the very instant another one ends, and its event runs first.  A schedule
    without is one in which the finish always runs first. *)
Fixpoint finish_first (pending : list reception) (ops : list rx_op) : Prop :=
  match ops with
  | [] => True
  | OStart t uid tx pow :: l =>
      Forall (fun r => t < rx_end r) pending /\ finish_first (schedule (mkRx uid t (t + tx) pow) pending) l
  | OFinish :: l => finish_first (tl pending) l
  end.

(** The entry of the log is what the busy period demands. *)
Definition judged (below : Z -> Z -> bool) (all : list reception) (a : reception) (up : list Z) : Prop :=
  exists others, others_of all a others /\
    ((others = [] \/ below (rx_pow a) (total others) = false) /\ up = [rx_uid a] \/
     (others <> [] /\ below (rx_pow a) (total others) = true) /\ up = []).

(** Any schedule, ties included.  A stretch lasts from a start with nothing pending to the next time nothing is.  Of the
    frames that start in it, those that start before every pending frame has ended have joined; one that starts at the very
    instant at which all the pending ones end, but before their ends have run, has not.  For every end: the frame, the first
    of its stretch, and those that have joined so far. *)
Fixpoint stretches (pending : list reception) (first : option reception) (joined : list reception) (ops : list rx_op) : list (reception * option reception * list reception) :=
  match ops with
  | [] => []
  | OStart t uid tx pow :: l =>
      let r := mkRx uid t (t + tx) pow in
      match pending with
      | [] => stretches [r] (Some r) [] l
      | _ => stretches (schedule r pending) first (if existsb (fun x => t <? rx_end x) pending then joined ++ [r] else joined) l
      end
  | OFinish :: l =>
      match pending with
      | [] => []
      | a :: rest => (a, first, joined) :: stretches rest first joined l
      end
  end.
(** The frame is passed up when nobody has joined, or when it stands out against the first and those that have joined, less
    itself, be it one of them or not. *)
Definition judged_tied (below : Z -> Z -> bool) (e : reception * option reception * list reception) (up : list Z) : Prop :=
  let '(a, first, joined) := e in
  exists f, first = Some f /\
    ((joined = [] \/ below (rx_pow a) (rx_pow f + total joined - rx_pow a) = false) /\ up = [rx_uid a] \/
     (joined <> [] /\ below (rx_pow a) (rx_pow f + total joined - rx_pow a) = true) /\ up = []).

(** Nothing else is received while [a] is, not even at its first and last instants. *)
Definition apart_from_all (all : list reception) (a : reception) : Prop :=
  forall b, In b all -> b <> a -> rx_end b < rx_start a \/ rx_end a < rx_start b.
