(** One name at one node: NFD's PIT entry under the geo-tag strategy (fw/geotag-strategy.cpp:54-64, 93-102, 185-190, 246-251).
    The entry, its pipelines, the exponential suppression and the treatment of Nacks are NFD's. *)
From Coq Require Import ZArith List Bool.
From Verif Require Import Base SatAddrModel ConstellationModel GeoTagModel.
Import ListNotations.
Open Scope Z_scope.

(** RETX_SUPPRESSION_INITIAL and RETX_SUPPRESSION_MAX in nanoseconds (geotag-strategy.cpp:56-57); the multiplier is NFD's
    default, 2. *)
Definition retx_initial : Z := 10 * 1000000.
Definition retx_max : Z := 250 * 1000000.

(** An out-record: when it was last renewed, when it expires, the reason of the Nack received for it. *)
Record orec := mkO { o_renewed : Z; o_expiry : Z; o_nack : option Z }.

(** The in-records with their expiry, the out-records, the suppression interval, the time of the expiry timer. *)
Record entry := mkE { e_in : list (face * Z); e_out : list (face * orec); e_wait : Z; e_end : Z }.
Definition e_new : entry := mkE [] [] retx_initial 0.

Fixpoint record_of {A} (f : face) (l : list (face * A)) : option A :=
  match l with [] => None | (g, x) :: r => if face_eqb g f then Some x else record_of f r end.
Fixpoint record_put {A} (f : face) (x : A) (l : list (face * A)) : list (face * A) :=
  match l with [] => [(f, x)] | (g, y) :: r => if face_eqb g f then (f, x) :: r else (g, y) :: record_put f x r end.
Definition record_drop {A} (f : face) (l : list (face * A)) : list (face * A) := filter (fun r => negb (face_eqb (fst r) f)) l.

Definition latest (l : list Z) : Z := match l with [] => 0 | x :: r => fold_left Z.max r x end.

(** hasPendingOutRecords *)
Definition still_out (t : Z) (e : entry) : bool :=
  existsb (fun r => (t <=? o_expiry (snd r)) && match o_nack (snd r) with None => true | Some _ => false end) (e_out e).

(** RetxSuppressionExponential::decidePerPitEntry, called at geotag-strategy.cpp:97. *)
Definition retx_decide (t : Z) (e : entry) : suppression * entry :=
  if still_out t e then
    if t - latest (map (fun r => o_renewed (snd r)) (e_out e)) <? e_wait e then (SUPPRESS, e)
    else (FORWARD, mkE (e_in e) (e_out e) (Z.min retx_max (e_wait e * 2)) (e_end e))
  else (NEW, e).

(** What happens at the node.  [Ask]: an Interest that is not a loop arrives on a face, with its tag and lifetime;
    [Answer]: Data; [Refuse]: a Nack for what was last sent on the face.  In nanoseconds. *)
Inductive pop := Ask (t : Z) (f : face) (tag : option (Z * Z * Z)) (life : Z) | Answer (t : Z) (f : face) | Refuse (t : Z) (f : face) (reason : Z).
Definition pop_time (o : pop) : Z := match o with Ask t _ _ _ => t | Answer t _ => t | Refuse t _ _ => t end.

(** What leaves: the Interest with its tag, a Nack, Data; [AClosed]: the entry is removed before its time. *)
Inductive pev := ASent (f : face) (tag : option (Z * Z * Z)) | ANacked (f : face) (reason : Z) | AData (f : face) | AClosed.

Definition no_route : Z := 150.

(** NFD's onOutgoingNack: only on point-to-point faces, only if there is an in-record, which goes. *)
Definition out_nack (e : entry) (f : face) (reason : Z) : entry * list pev :=
  if ad_hoc f then (e, [])
  else match record_of f (e_in e) with
       | None => (e, [])
       | Some _ => (mkE (record_drop f (e_in e)) (e_out e) (e_wait e) (e_end e), [ANacked f reason])
       end.

(** sendInterest, sendNack, rejectPendingInterest.  The entry is removed at once (NFD: by an event for the same instant). *)
Definition one_act (t life : Z) (tag : option (Z * Z * Z)) (s : option entry) (a : action) : option entry * list pev :=
  match s with
  | None => (None, [])
  | Some e =>
      match a with
      | SendInterest g =>
          (Some (mkE (e_in e) (record_put g (mkO t (t + life) None) (e_out e)) (e_wait e) (e_end e)), [ASent g tag])
      | SendNoRouteNack g => let (e1, ev) := out_nack e g no_route in (Some e1, ev)
      | RejectPendingInterest => (None, [AClosed])
      end
  end.
Fixpoint do_acts (t life : Z) (tag : option (Z * Z * Z)) (s : option entry) (l : list action) : option entry * list pev :=
  match l with
  | [] => (s, [])
  | a :: l' => let (s1, v1) := one_act t life tag s a in let (s2, v2) := do_acts t life tag s1 l' in (s2, v1 ++ v2)
  end.

(** lp::isLessSevere; 0 is no reason. *)
Definition less_severe (x y : Z) : bool := if x =? 0 then false else if y =? 0 then true else x <? y.
Definition least_severe (l : list (face * orec)) : Z :=
  fold_left (fun a r => match o_nack (snd r) with Some x => if less_severe x a then x else a | None => a end) l 0.

Fixpoint out_nacks (e : entry) (l : list face) (reason : Z) : entry * list pev :=
  match l with
  | [] => (e, [])
  | f :: l' => let (e1, v1) := out_nack e f reason in let (e2, v2) := out_nacks e1 l' reason in (e2, v1 ++ v2)
  end.

(** ProcessNackTraits::processNack, called at geotag-strategy.cpp:250. *)
Definition process_nack (e : entry) : entry * list pev :=
  match filter (fun r => match o_nack (snd r) with None => true | Some _ => false end) (e_out e) with
  | [] => out_nacks e (map fst (e_in e)) (least_severe (e_out e))
  | [(f, _)] => match record_of f (e_in e) with
                | Some _ => out_nack e f (least_severe (e_out e))
                | None => (e, [])
                end
  | _ => (e, [])
  end.

(** sendDataToAll: to the in-records that have not expired, but for a point-to-point face it came from. *)
Definition data_to (t : Z) (f : face) (e : entry) : list pev :=
  map (fun r => AData (fst r)) (filter (fun r => (t <? snd r) && negb (face_eqb (fst r) f && negb (ad_hoc f))) (e_in e)).

Section Node.
Variable nw : network.
Variable h : host.
Variable self : dev.
Variable nexthops : list face.   (* of the FIB entry, by cost *)
Variable scope : face -> bool.   (* the faces that the scope of the name forbids *)

(** The entry at [t]: gone if its timer has run out. *)
Definition at_time (t : Z) (s : option entry) : option entry :=
  match s with Some e => if t <? e_end e then Some e else None | None => None end.

Definition pit_step (s : option entry) (o : pop) : result (option entry * list pev) :=
  match o with
  | Ask t f tag life =>
      let e := match at_time t s with Some e => e | None => e_new end in
      (* onIncomingInterest, onContentStoreMiss: the in-record, then the timer, then the strategy *)
      let ins := record_put f (t + life) (e_in e) in
      let (sup, e2) := retx_decide t (mkE ins (e_out e) (e_wait e) (latest (map snd ins))) in
      do acts <- after_receive_interest nw h self nexthops
                   (mkReq tag f sup (fun g => option_map (fun r => (o_renewed r, o_expiry r)) (record_of g (e_out e2))) scope t) ;
      Ok (do_acts t life tag (Some e2) acts)
  | Answer t f =>
      match at_time t s with
      | None => Ok (None, [])
      | Some e => Ok (None, data_to t f e)
      end
  | Refuse t f reason =>
      match at_time t s with
      | None => Ok (None, [])
      | Some e =>
          if ad_hoc f then Ok (Some e, [])
          else match record_of f (e_out e) with
               | None => Ok (Some e, [])
               | Some r =>
                   let e1 := mkE (e_in e) (record_put f (mkO (o_renewed r) (o_expiry r) (Some reason)) (e_out e)) (e_wait e) (e_end e) in
                   let (e2, ev) := process_nack e1 in
                   if still_out t e1 then Ok (Some e2, ev) else Ok (None, ev ++ [AClosed])
               end
      end
  end.

Fixpoint pit_run (s : option entry) (ops : list pop) : result (option entry * list (pop * list pev)) :=
  match ops with
  | [] => Ok (s, [])
  | o :: l => do (s1, ev) <- pit_step s o ; do (s2, tr) <- pit_run s1 l ; Ok (s2, (o, ev) :: tr)
  end.
End Node.
