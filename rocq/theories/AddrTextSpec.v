(** Independent description of the text form of an address. *)
From Coq Require Import Ascii String ZArith List.
Import ListNotations.
Open Scope Z_scope.

(** The sixteen lower-case digits in order. *)
Definition hexadecimal_digits : list ascii := list_ascii_of_string "0123456789abcdef".
Definition digit (d : Z) : ascii := nth (Z.to_nat d) hexadecimal_digits "?"%char.

(** Four digits, most significant first. *)
Definition group (x : Z) : list ascii :=
  [digit (x / 4096); digit (x / 256 mod 16); digit (x / 16 mod 16); digit (x mod 16)].

Definition address_text (c p i : Z) : list ascii :=
  group c ++ [":"%char] ++ group p ++ [":"%char] ++ group i.

(** A hexadecimal numeral of either case and its value, by position. *)
Definition upper_digits : list ascii := list_ascii_of_string "0123456789ABCDEF".
Inductive numeral : list ascii -> Z -> Prop :=
| numeral_one : forall d c, 0 <= d < 16 ->
    c = digit d \/ c = nth (Z.to_nat d) upper_digits "?"%char -> numeral [c] d
| numeral_more : forall w v d c, numeral w v -> 0 <= d < 16 ->
    c = digit d \/ c = nth (Z.to_nat d) upper_digits "?"%char -> numeral (w ++ [c]) (16 * v + d).

(** Text that cannot extend a numeral. *)
Definition ends_numeral (rest : list ascii) : Prop :=
  match rest with
  | [] => True
  | c :: _ => ~ In c hexadecimal_digits /\ ~ In c upper_digits /\ c <> "x"%char /\ c <> "X"%char
  end.

(** White space: tabulator, line feed, vertical tabulator, form feed, carriage return, blank. *)
Definition blanks : list ascii := map ascii_of_nat [9; 10; 11; 12; 13; 32]%nat.
Definition starts_with (l t : list ascii) : Prop := exists c r, t = c :: r /\ In c l.
Inductive signed : list ascii -> bool -> Prop :=
| no_sign : signed [] false
| plus : signed ["+"%char] false
| minus : signed ["-"%char] true.
Inductive prefixes : list ascii -> Prop :=
| no_prefix : prefixes []
| one_prefix : forall x p, In x ["x"; "X"]%char -> prefixes p -> prefixes ("0"%char :: x :: p).

(** What becomes of a group of text: the value put in the variable, or none; whether it was accepted; what is left. *)
Inductive reads : list ascii -> option Z -> bool -> list ascii -> Prop :=
| reads_blank : forall b, Forall (fun c => In c blanks) b -> reads b None false []
| reads_number : forall b s neg p w v rest, Forall (fun c => In c blanks) b -> signed s neg -> prefixes p -> numeral w v ->
    ~ starts_with (hexadecimal_digits ++ upper_digits) rest ->
    ~ (w = ["0"%char] /\ starts_with ["x"; "X"]%char rest) ->
    reads (b ++ s ++ p ++ w ++ rest) (Some (if 65535 <? v then 65535 else if neg then (65536 - v) mod 65536 else v))
      (v <=? 65535) rest
| reads_nothing : forall b s neg p rest, Forall (fun c => In c blanks) b -> signed s neg -> prefixes p ->
    s ++ p ++ rest <> [] -> ~ starts_with (hexadecimal_digits ++ upper_digits) rest ->
    (s = [] -> p = [] -> ~ starts_with (blanks ++ ["+"; "-"]%char) rest) ->
    reads (b ++ s ++ p ++ rest) (Some 0) false rest.
