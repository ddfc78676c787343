(** * What a cubic Hermite curve is, independent of the code *)

From Coq Require Import List Reals.
From Verif Require Import Base HermiteE3.
Import ListNotations.
Local Open Scope R_scope.

(** The three coordinates of a vector. *)
Inductive axis := AX | AY | AZ.
Definition coord (a : axis) (v : vec3 R) : R :=
  match a with AX => vx v | AY => vy v | AZ => vz v end.

(** Neighbours in a list. *)
Definition adjacent {A} (l : list A) (x y : A) : Prop := exists u v, l = u ++ x :: y :: v.

(** A polynomial of degree at most three and its first two derivatives. *)
Definition cubic (c0 c1 c2 c3 t : R) : R := c0 + c1 * t + c2 * t ^ 2 + c3 * t ^ 3.
Definition dcubic (c0 c1 c2 c3 t : R) : R := c1 + 2 * c2 * t + 3 * c3 * t ^ 2.
Definition ddcubic (c0 c1 c2 c3 t : R) : R := 2 * c2 + 6 * c3 * t.

(** Value at knot [i] of a list of reals. *)
Definition at_knot (l : list R) (i : nat) : R := nth i l 0.

(** Strictly increasing knot times. *)
Definition increasing_times (ts : list R) : Prop :=
  forall i, (S i < length ts)%nat -> at_knot ts i < at_knot ts (S i).

(** Catmull-Rom derivative with given end derivatives: [n] points at times [ts] with
    coordinates [ps]. *)
Definition catmull_rom (ts ps : list R) (d0 d1 : R) (i : nat) : R :=
  match i with
  | O => d0
  | S j => if Nat.eqb (S i) (length ts) then d1
           else (at_knot ps (S i) - at_knot ps j) / (at_knot ts (S i) - at_knot ts j)
  end.

(** An affine map of space: [x -> M x + b]. *)
Definition linear (M : axis -> axis -> R) (v : vec3 R) : vec3 R :=
  let row a := M a AX * vx v + M a AY * vy v + M a AZ * vz v in V3 (row AX) (row AY) (row AZ).
Definition affine (M : axis -> axis -> R) (b v : vec3 R) : vec3 R :=
  let w := linear M v in V3 (vx w + vx b) (vy w + vy b) (vz w + vz b).

(** The point [p + t v]. *)
Definition straight (p v : vec3 R) (t : R) : vec3 R :=
  V3 (vx p + t * vx v) (vy p + t * vy v) (vz p + t * vz v).

(** A vector multiplied by a number. *)
Definition scaled (s : R) (v : vec3 R) : vec3 R := V3 (s * vx v) (s * vy v) (s * vz v).

(** Applying a map to the value of a successful evaluation. *)
Definition on_value {A B} (f : A -> B) (o : outcome (option A)) : outcome (option B) :=
  match o with
  | Ok (Some v) => Ok (Some (f v))
  | Ok None => Ok None
  | Abort => Abort
  | Throw => Throw
  | UB => UB
  end.

(** The motion [p + t v + t^2 w] and its velocity. *)
Definition quadratic (p v w : vec3 R) (t : R) : vec3 R := straight (straight p v t) w (t * t).
Definition quadratic_velocity (v w : vec3 R) (t : R) : vec3 R := straight v w (2 * t).

(** Equidistant times. *)
Definition equidistant (h : R) (ts : list R) : Prop :=
  forall i, (S i < length ts)%nat -> at_knot ts (S i) = at_knot ts i + h.

(** The second period of the continuation of [f] from [[a,b]] with period [b - a]. *)
Definition next_period (f : R -> R) (a b t : R) : R := if Rle_dec t b then f t else f (t - (b - a)).

(** The slope from the last but one point over the seam to the second point of a closed curve. *)
Definition seam_slope (ts ps : list R) : R :=
  let n := length ts in
  (at_knot ps 1 - at_knot ps (n - 2)) /
  ((at_knot ts 1 - at_knot ts 0) + (at_knot ts (n - 1) - at_knot ts (n - 2))).
