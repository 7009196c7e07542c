(** What users rely on for satellite addresses, without the model's helpers. *)
From Coq Require Import ZArith List.
Import ListNotations.
Open Scope Z_scope.

(** Network byte order of three 16-bit numbers. *)
Definition network_bytes (c p i : Z) : list Z :=
  [c / 256; c mod 256; p / 256; p mod 256; i / 256; i mod 256].

(** Generic addresses a satellite address may be read from: six bytes, satellite type or wildcard. *)
Definition readable_as_satellite (sat_type ty : Z) (data : list Z) : Prop :=
  length data = 6%nat /\ (ty = sat_type \/ ty = 0).
