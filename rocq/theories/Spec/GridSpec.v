(** Vocabulary for the grid of points on a sphere. *)
From Coq Require Import ZArith Reals List.
Local Open Scope R_scope.

(** The k-th of [n] angles evenly spread over the half circle from -pi/2 to pi/2 (the middle of the k-th of n equal parts). *)
Definition spread (n k : nat) : R := - (PI / 2) + (INR k + 1 / 2) * (PI / INR n).
(** A point (x, y, z) of the unit sphere in front of the viewer, who sits in the center and looks along z. *)
Definition on_sphere (p : R * R * R) : Prop := let '(x, y, z) := p in x * x + y * y + z * z = 1 /\ 0 < z.
(** With latitude [a] and longitude [b]; the viewer looks at the equator. *)
Definition from_equator (a b : R) : R * R * R := (cos a * sin b, sin a, cos a * cos b).
(** With distance [a] from the pole along meridian [b]; the viewer looks at the pole. *)
Definition from_pole (a b : R) : R * R * R := (sin a * cos b, sin a * sin b, cos a).
(** Where the line from the center through a point of the sphere meets the plane z = 1, in pixels: the picture is
    centered in the frame and max(h, w) pixels are one unit. *)
Definition seen_at (w h : Z) (p : R * R * R) : R * R :=
  let '(x, y, z) := p in (IZR (w / 2) + IZR (Z.max h w) * (x / z), IZR (h / 2) + IZR (Z.max h w) * (y / z)).
(** The point of the sphere for two angles. *)
Definition viewpoint (polar : bool) : R -> R -> R * R * R := if polar then from_pole else from_equator.
