(** How CRDSA chooses the slots of the replicas of each packet (model/mac/crdsa-mac-model.cc:136-162). *)
From Coq Require Import ZArith List Bool Arith.
From Verif Require Import Base CrdsaModel.
Import ListNotations.
Open Scope nat_scope.

Fixpoint put {B} (l : list B) (i : nat) (v : B) : list B :=
  match l, i with
  | [], _ => []
  | _ :: r, O => v :: r
  | x :: r, S k => x :: put r k v
  end.
(** std::iter_swap *)
Definition swap {B} (l : list B) (i j : nat) : list B :=
  match nth_error l i, nth_error l j with
  | Some x, Some y => put (put l i y) j x
  | _, _ => l
  end.

(** std::shuffle as in libstdc++: each place from the second on is swapped with a place drawn among those up to it.  The draws are
    arguments; std::uniform_int_distribution makes them from the 32 bit numbers of the adaptor (40-70). *)
Fixpoint shuffle_from {B} (i : nat) (l : list B) (draws : list nat) : list B :=
  match draws with
  | [] => l
  | j :: r => shuffle_from (S i) (swap l i j) r
  end.
Definition shuffle {B} (l : list B) (draws : list nat) : list B := shuffle_from 1 l draws.

(** GetSelectedSlots (152-162) for one packet after the other: m_slotIds stays as it was shuffled last.  [reps] are the numbers of
    replicas; the slots selected for each packet. *)
Fixpoint select_all (ids : list Z) (reps : list nat) (draws : list (list nat)) : result (list (list Z)) :=
  match reps, draws with
  | [], _ => Ok []
  | r :: rs, d :: ds =>
      let ids1 := shuffle ids d in
      do sel <- selected_slots ids1 r ;
      do rest <- select_all ids1 rs ds ;
      Ok (sel :: rest)
  | _ :: _, [] => UB
  end.
