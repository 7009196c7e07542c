(** What the calls on a helper ask for. *)
From Coq Require Import ZArith List Bool String.
From Verif Require Import Base ConfigModel.
Import ListNotations.
Open Scope string_scope.

(** What a call says about one factory: use a type, or give an attribute a value. *)
Inductive order := Use (ty : string) | Give (name : string) (v : value).

(** The orders of a call to the factory [s]; [name] completes the types given, [both] if devices are of two types. *)
Definition orders (name : part -> string -> string) (both : bool) (s : slot) (c : setting) : list order :=
  match c, s with
  | HSet p ty opts, SPart p' =>
      if slot_dec (SPart p) (SPart p') then Use (name p ty) :: map (fun o => Give (fst o) (snd o)) opts else []
  | HDevice o, SSat => [Give (fst o) (snd o)]
  | HDevice o, SGround => if both then [Give (fst o) (snd o)] else []
  | HChannel o, SChannel => [Give (fst o) (snd o)]
  | _, _ => []
  end.

Section Said.
Variable types : string -> option type.
Variable parse : attr_kind -> string -> option value.

(** The type in use after some orders. *)
Fixpoint in_use (init : string) (l : list order) : string :=
  match l with [] => init | Use t :: r => in_use t r | Give _ _ :: r => in_use init r end.

(** The attribute a name stands for in a type: the first declaration of that name. *)
Definition names_attr (ty n : string) (d : decl) : Prop :=
  exists t l1 l2, types ty = Some t /\ t_decls t = (l1 ++ d :: l2)%list /\ d_name d = n /\ (forall e, In e l1 -> d_name e <> n).

(** The [i]th order gives the attribute [d] the value [w]. *)
Definition gives (init : string) (l : list order) (i : nat) (d : decl) (w : value) : Prop :=
  exists n v d', nth_error l i = Some (Give n v) /\ n <> "" /\ names_attr (in_use init (firstn i l)) n d' /\
    d_owner d' = d_owner d /\ d_name d' = d_name d /\ accepts parse (d_kind d') v = Some w.
Definition ever_given (init : string) (l : list order) (d : decl) : Prop := exists i w, gives init l i d w.

(** The value an attribute should have: the last one given, and the default if none was. *)
Definition said (init : string) (l : list order) (d : decl) (w : value) : Prop :=
  (exists i, gives init l i d w /\ forall j w', (i < j)%nat -> ~ gives init l j d w') \/ (~ ever_given init l d /\ w = d_default d).

(** An order that makes sense. *)
Definition sensible (init : string) (l : list order) (i : nat) : Prop :=
  match nth_error l i with
  | Some (Use t) => exists ty, types t = Some ty
  | Some (Give n v) => n = "" \/ exists d w, names_attr (in_use init (firstn i l)) n d /\ accepts parse (d_kind d) v = Some w
  | None => True
  end.

(** The object asked for: of the type in use, all its attributes as said. *)
Definition as_said (init : string) (l : list order) (o : object) : Prop :=
  o_type o = in_use init l /\
  exists t, types (o_type o) = Some t /\ map fst (o_attrs o) = t_decls t /\ forall d w, In (d, w) (o_attrs o) -> said init l d w.

(** There can be such an object: the type can be made, and nothing was given that cannot be. *)
Definition can_make (init : string) (l : list order) : Prop :=
  exists t, types (in_use init l) = Some t /\ t_new t = true /\
    forall d, In d (t_decls t) -> d_construct d = false -> ~ ever_given init l d.

(** It is of a class. *)
Definition of_class (class ty : string) : Prop := exists t, types ty = Some t /\ In class (t_line t).

(** What one would expect a setter to mean: the orders of the last call that chose a type (and of those after), not those before. *)
Fixpoint last_call (l : list order) : list order :=
  match l with
  | [] => []
  | o :: r => if existsb (fun x => match x with Use _ => true | _ => false end) r then last_call r else o :: r
  end.
Definition as_meant (init : string) (l : list order) (o : object) : Prop := as_said init (last_call l) o.

(** A pointer to an object just made, or null. *)
Definition shows (o : option object) (v : value) : Prop :=
  match o with
  | None => v = VPtr None
  | Some x => exists t, types (o_type x) = Some t /\ v = VPtr (Some (t_line t))
  end.

(** An object as asked for, except for the attributes the helper fills in itself. *)
Definition filled_as (init : string) (l : list order) (fills : list (string * option object)) (attached : list (string * value)) (o : object) : Prop :=
  o_type o = in_use init l /\
  exists t, types (o_type o) = Some t /\ map fst (o_attrs o) = t_decls t /\
    forall d w, In (d, w) (o_attrs o) ->
      (exists x, In (d_name d, x) fills /\ shows x w) \/ In (d_name d, w) attached \/
      (~ In (d_name d) (map fst fills) /\ ~ In (d_name d) (map fst attached) /\ said init l d w).

(** A part as asked for, or nothing if the type asked for is not of the class needed. *)
Definition part_as (class init : string) (l : list order) (o : option object) : Prop :=
  match o with Some x => as_said init l x /\ of_class class (o_type x) | None => ~ of_class class (in_use init l) end.
End Said.
