(** What should happen on a node, told from what happened before. *)
From Coq Require Import ZArith List Bool Arith.
From Verif Require Import Base LifeModel.
Import ListNotations.
Open Scope Z_scope.

(** The devices of the faces made so far, in order; face number f is the f-th. *)
Definition made (h : list lop) : list nat := flat_map (fun o => match o with LNew _ d => [d] | _ => [] end) h.
Definition is_face (h : list lop) (f d : nat) : Prop := nth_error (made h) f = Some d.

(** The faces on a device, in the order they were made. *)
Fixpoint places (d : nat) (from : nat) (l : list nat) : list nat :=
  match l with [] => [] | e :: r => if (e =? d)%nat then from :: places d (S from) r else places d (S from) r end.
Definition faces_on (d : nat) (h : list lop) : list nat := places d 0 (made h).

(** The satellite a ground station was last aimed at. *)
Definition aimed_at (start : nat -> Z) (h : list lop) (d : nat) : Z :=
  fold_left (fun a o => match o with LTarget e b => if (e =? d)%nat then b else a | _ => a end) h (start d).

Section Spec.
Variable ndn : Z.
Variable kinds : nat -> dkind.
Variable start : nat -> Z.

(** The forwarder makes faces on devices of the right kind and uses those that are not gone; closed faces go. *)
Definition proper (h : list lop) (o : lop) : Prop :=
  match o with
  | LNew k d => kinds d = k /\ k <> OtherDev
  | LClose f => (f < length (made h))%nat /\ ~ In (LGone f) h
  | LGone f => In (LClose f) h /\ ~ In (LGone f) h
  | LSend f _ => (f < length (made h))%nat /\ ~ In (LGone f) h
  | LFrame _ _ _ => True
  | LTarget d _ => kinds d = GroundDev
  end.
Definition proper_run (ops : list lop) : Prop := forall h o r, ops = h ++ o :: r -> proper h o.

(** Something comes for a device one of whose faces is gone. *)
Definition stale (h : list lop) (d : nat) : Prop := exists f, is_face h f d /\ In (LGone f) h.
Definition strikes (h : list lop) (o : lop) : Prop :=
  match o with
  | LFrame d p _ => p = ndn /\ stale h d
  | LTarget d a => a <> aimed_at start h d /\ stale h d
  | _ => False
  end.

(** What is seen when [o] follows [h]. *)
Definition seen_after (h : list lop) (o : lop) (ev : list lev) : Prop :=
  match o with
  | LFrame d p b => ev = (if p =? ndn then map (fun f => EGot f b) (faces_on d h) else [])
  | LTarget d a => ev = (if aimed_at start h d =? a then [] else map (fun f => EUri f a) (faces_on d h))
  | LSend f b => (In (LClose f) h /\ ev = []) \/ (~ In (LClose f) h /\ exists d, is_face h f d /\ ev = [ESent d b])
  | _ => ev = []
  end.
(** The trace is what is seen after each operation. *)
Inductive seen : list lop -> list lev -> Prop :=
| seen_nil : seen [] []
| seen_snoc : forall h tr o ev, seen h tr -> seen_after h o ev -> seen (h ++ [o]) (tr ++ ev).

(** The claim: whatever the forwarder does with its faces, nothing fails, and a face gets nothing once it is closed. *)
Definition faces_end : Prop := forall ops, proper_run ops ->
  exists n tr, l_run ndn kinds (node_init start) ops = Some (Ok (n, tr)) /\
    forall h f r n1 tr1, ops = h ++ LClose f :: r -> l_run ndn kinds (node_init start) h = Some (Ok (n1, tr1)) ->
      forall b, ~ In (EGot f b) (skipn (length tr1) tr).
End Spec.
