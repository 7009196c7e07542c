(** Text form of satellite addresses: operator<< and operator>> (utils/sat-address.cc:155-191). *)
From Coq Require Import Ascii String ZArith List Lia Bool.
From Verif Require Import Base SatAddrModel.
Import ListNotations.
Open Scope Z_scope.

Definition text := list ascii.
Definition txt (s : string) : text := list_ascii_of_string s.
Definition colon : ascii := ":"%char.
Definition code (c : ascii) : Z := Z.of_N (N_of_ascii c).

(** * Output *)

(** One lower-case hexadecimal digit. *)
Definition hex_char (d : Z) : ascii :=
  ascii_of_N (Z.to_N (if d <? 10 then 48 + d else 87 + d)).

(** Digits of [x] without leading zeros, as the stream's hex conversion produces them.
    [fuel] bounds the number of digits; four are enough for a uint16_t. *)
Fixpoint hex_min (fuel : nat) (x : Z) : text :=
  match fuel with
  | O => []
  | S f => (if x <? 16 then [] else hex_min f (x / 16)) ++ [hex_char (x mod 16)]
  end.

(** std::setw (w) with the given fill character and right adjustment (the stream default). *)
Definition setw (w : nat) (fill : ascii) (s : text) : text :=
  repeat fill (w - length s) ++ s.

(** operator<< (sat-address.cc:155-171) on a stream with default flags other than base and fill;
    the flag changes at 160-161 and 167-168 are folded in. *)
Definition print_address (h : host) (a : sat_address) : text :=
  setw 4 "0" (hex_min 4 (get_constellation h a)) ++ [colon] ++
  setw 4 "0" (hex_min 4 (get_plane h a)) ++ [colon] ++
  setw 4 "0" (hex_min 4 (get_index h a)).

(** * Input *)

(** An input stream: characters left, eofbit, failbit. *)
Record istream := mkIs { buf : text; eofb : bool; failb : bool }.
Definition good (s : istream) : bool := negb (eofb s) && negb (failb s).
Definition istringstream (t : text) : istream := mkIs t false false.

Definition is_space (c : ascii) : bool :=
  ((9 <=? code c) && (code c <=? 13)) || (code c =? 32).

Fixpoint skip_ws (t : text) : text :=
  match t with
  | c :: r => if is_space c then skip_ws r else t
  | [] => []
  end.

(** std::getline (is, str, delim): the string is kept when the sentry fails. *)
Fixpoint until_delim (d : ascii) (t : text) : text * option text :=
  match t with
  | [] => ([], None)
  | c :: r => if Ascii.eqb c d then ([], Some r)
              else let (x, y) := until_delim d r in (c :: x, y)
  end.

Definition getline (s : istream) (old : text) (d : ascii) : text * istream :=
  if good s then
    match until_delim d (buf s) with
    | (x, Some r) => (x, mkIs r false false)
    | (x, None) => (x, mkIs [] true (match x with [] => true | _ => false end))
    end
  else (old, mkIs (buf s) (eofb s) true).

(** Value of a hexadecimal digit of either case. *)
Definition hex_val (c : ascii) : option Z :=
  let k := code c in
  if (48 <=? k) && (k <=? 57) then Some (k - 48)
  else if (97 <=? k) && (k <=? 102) then Some (k - 87)
  else if (65 <=? k) && (k <=? 70) then Some (k - 55)
  else None.

Fixpoint take_hex (t : text) : list Z * text :=
  match t with
  | c :: r => match hex_val c with
              | Some v => let (ds, r') := take_hex r in (v :: ds, r')
              | None => ([], t)
              end
  | [] => ([], [])
  end.

Definition digits_value (ds : list Z) : Z := fold_left (fun acc d => 16 * acc + d) ds 0.

Definition strip_sign (t : text) : bool * text :=
  match t with
  | c :: r => if Ascii.eqb c "-" then (true, r)
              else if Ascii.eqb c "+" then (false, r) else (false, t)
  | [] => (false, [])
  end.

(** Leading "0x"/"0X", which libstdc++ accepts any number of times; a "0" counts as a digit already seen. *)
Fixpoint strip_prefix (t : text) : bool * text :=
  match t with
  | c :: r =>
      if Ascii.eqb c "0" then
        match r with
        | x :: r' => if Ascii.eqb x "x" || Ascii.eqb x "X" then strip_prefix r' else (true, r)
        | [] => (true, [])
        end
      else (false, t)
  | [] => (false, [])
  end.

(** [is >> std::hex >> v] for a uint16_t [v] (the C++ library's num_get): [None] means the
    variable is left untouched. *)
Definition extract_hex (s : istream) : option Z * istream :=
  if good s then
    match skip_ws (buf s) with
    | [] => (None, mkIs [] true true)
    | t =>
        let (neg, t1) := strip_sign t in
        let (zero, t2) := strip_prefix t1 in
        let (ds, r) := take_hex t2 in
        let e := match r with [] => true | _ => false end in
        if negb zero && match ds with [] => true | _ => false end
        then (Some 0, mkIs r e true)
        else if 65535 <? digits_value ds
        then (Some 65535, mkIs r e true)
        else (Some (if (neg : bool) then u16 (- digits_value ds) else digits_value ds), mkIs r e false)
    end
  else (None, mkIs (buf s) (eofb s) true).

(** operator>> (sat-address.cc:173-191).  The three locals start indeterminate (line 178);
    building the address from an untouched one is undefined. *)
Definition read_address (h : host) (s : istream) : result sat_address * istream :=
  let (tmp1, s1) := getline s [] colon in
  let constellation := fst (extract_hex (istringstream tmp1)) in
  let (tmp2, s2) := getline s1 tmp1 colon in
  let plane := fst (extract_hex (istringstream tmp2)) in
  let (index, s3) := extract_hex s2 in
  (match constellation, plane, index with
   | Some c, Some p, Some i => Ok (sat_make h c p i)
   | _, _, _ => UB
   end, s3).
