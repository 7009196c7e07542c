(** One name in a whole constellation: every satellite has its PIT entry for the name (PendingModel), and what its pipelines send
    over a link arrives later at the other end.  Links deliver in any order and after any time; nothing is lost
    (losses and the order of frames are those of LinkModel and RelayModel). *)
From Coq Require Import ZArith List Bool Arith.
From Verif Require Import Base SatAddrModel ConstellationModel GeoTagModel PendingModel.
Import ListNotations.
Open Scope Z_scope.

(** On the way over channel [fl_chan] to node [fl_to]: an Interest with its lifetime, Data, or a Nack with its reason. *)
Inductive parcel := PAsk (life : Z) | PData | PNack (reason : Z).
Record flight := mkFl { fl_chan : nat; fl_to : nat; fl_what : parcel }.

Record rstate := mkRS { rs_now : Z; rs_pit : nat -> option entry; rs_air : list flight }.
Definition rs_init (t : Z) : rstate := mkRS t (fun _ => None) [].

(** A satellite receives from the ground an Interest for the name, or Data; or what is on the way in some place arrives. *)
Inductive rop := RAsk (t : Z) (n : nat) (life : Z) | RData (t : Z) (n : nat) | RMove (t : Z) (i : nat).

(** What happened: the node, what it received on which face, what it did. *)
Definition rlog := list (nat * pop * list pev).

Section Return.
Variable nw : network.
Variable h : host.
Variable nh : nat -> list face.      (* of the FIB entries *)
Variable scope : face -> bool.
Variable tag : Z * Z * Z.            (* the tag of all Interests for the name *)

(** Faces on inter-satellite devices lead to the device at the other end of the channel (sat2sat-channel.cc:92-140,
    isl-helper.cc:413-449); what is sent on the ground face leaves the constellation.  The InterestLifetime stays. *)
Definition emit (n : nat) (life : Z) (v : pev) : result (list flight) :=
  match v with
  | ASent (IslFace k) _ => do m <- remote_node nw n (IslFace k) ; Ok [mkFl k m (PAsk life)]
  | AData (IslFace k) => do m <- remote_node nw n (IslFace k) ; Ok [mkFl k m PData]
  | ANacked (IslFace k) r => do m <- remote_node nw n (IslFace k) ; Ok [mkFl k m (PNack r)]
  | _ => Ok []
  end.
Fixpoint emit_all (n : nat) (life : Z) (l : list pev) : result (list flight) :=
  match l with
  | [] => Ok []
  | v :: r => do a <- emit n life v ; do b <- emit_all n life r ; Ok (a ++ b)
  end.

Definition put_pit (n : nat) (e : option entry) (p : nat -> option entry) : nat -> option entry := fun m => if (m =? n)%nat then e else p m.

(** Node [n] receives [o]; [air] is what else is on the way. *)
Definition at_node (s : rstate) (air : list flight) (n : nat) (o : pop) : result (rstate * (nat * pop * list pev)) :=
  do (e, ev) <- pit_step nw h n (nh n) scope (rs_pit s n) o ;
  do new <- emit_all n (match o with Ask _ _ _ life => life | _ => 0 end) ev ;
  Ok (mkRS (pop_time o) (put_pit n e (rs_pit s)) (air ++ new), (n, o, ev)).

Fixpoint take_out {A} (i : nat) (l : list A) : option (A * list A) :=
  match l, i with
  | [], _ => None
  | x :: r, O => Some (x, r)
  | x :: r, S j => option_map (fun y => (fst y, x :: snd y)) (take_out j r)
  end.

(** [None]: time would go back, or there is nothing in that place. *)
Definition r_step (s : rstate) (o : rop) : option (result (rstate * (nat * pop * list pev))) :=
  match o with
  | RAsk t n life => if rs_now s <=? t then Some (at_node s (rs_air s) n (Ask t GroundFace (Some tag) life)) else None
  | RData t n => if rs_now s <=? t then Some (at_node s (rs_air s) n (Answer t GroundFace)) else None
  | RMove t i =>
      match take_out i (rs_air s) with
      | None => None
      | Some (f, air) =>
          if rs_now s <=? t then
            Some (at_node s air (fl_to f)
              match fl_what f with
              | PAsk life => Ask t (IslFace (fl_chan f)) (Some tag) life
              | PData => Answer t (IslFace (fl_chan f))
              | PNack r => Refuse t (IslFace (fl_chan f)) r
              end)
          else None
      end
  end.

Fixpoint r_run (s : rstate) (ops : list rop) : option (result (rstate * rlog)) :=
  match ops with
  | [] => Some (Ok (s, []))
  | o :: l =>
      match r_step s o with
      | Some (Ok (s1, x)) =>
          match r_run s1 l with
          | Some (Ok (s2, tr)) => Some (Ok (s2, x :: tr))
          | r => r
          end
      | Some Assert => Some Assert | Some Abort => Some Abort | Some UB => Some UB
      | None => None
      end
  end.
End Return.
