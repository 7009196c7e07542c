(** Satellites on one orbit, one behind the other. *)
From Coq Require Import Reals.
From Verif Require Import Base OrbitModel DoubleModel DoubleSpec OrbitDoubleModel FixedDoubleSpec.
Open Scope R_scope.

Definition same_plane (o p : dorbit) : Prop := do_inclination o = do_inclination p /\ do_node o = do_node p /\ do_radius o = do_radius p.
(** The chord between them at the height that the sphere of radius [rs] gives. *)
Definition chord (rs : R) (o p : dorbit) : R :=
  2 * (rs + (real_of (do_radius o) - earth_radius)) * Rabs (sin ((real_of (do_phase o) - real_of (do_phase p)) / 2)).
(** Two parts in ten million of the radii. *)
Definition slack (o p : dorbit) : R := 2 / 10 ^ 7 * (real_of (do_radius o) + real_of (do_radius p)).
