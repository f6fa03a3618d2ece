(** Remapping of a periodic box to a cuboid (Carlson & White, arXiv:1003.3178), in words of lattices and geometry. *)
Require Import Reals List ZArith.
From Verif Require Import Vec3.
Open Scope R_scope.

(** Integer vectors, their determinant, and their image in space. *)
Definition zvec : Type := (Z * Z * Z)%type.
Definition real (u : zvec) : vec := let '(a, b, c) := u in V (IZR a) (IZR b) (IZR c).
Definition zdet (u v w : zvec) : Z :=
  let '(a, b, c) := u in let '(d, e, f) := v in let '(g, h, i) := w in
  (a * (e * i - f * h) - b * (d * i - f * g) + c * (d * h - e * g))%Z.
Definition unimodular (u v w : zvec) : Prop := zdet u v w = 1%Z.

(** The edges of the cuboid: u2 and u3 made orthogonal to the previous vectors by shearing. *)
Definition gram_schmidt (u1 u2 u3 e1 e2 e3 : vec) : Prop :=
  e1 = u1 /\ (exists a, e2 = vadd u2 (vscale a u1)) /\ (exists b c, e3 = vadd (vadd u3 (vscale b u1)) (vscale c u2)) /\
  vdot e1 e2 = 0 /\ vdot e1 e3 = 0 /\ vdot e2 e3 = 0.

(** Position in the box [0, size], with or without its upper faces. *)
Definition in_box (size x : vec) : Prop := 0 <= vx x <= vx size /\ 0 <= vy x <= vy size /\ 0 <= vz x <= vz size.
Definition in_half_open_box (size x : vec) : Prop := 0 <= vx x < vx size /\ 0 <= vy x < vy size /\ 0 <= vz x < vz size.
Definition positive (size : vec) : Prop := 0 < vx size /\ 0 < vy size /\ 0 < vz size.

(** Two positions are the same in the periodic box. *)
Definition same_periodic (size x y : vec) : Prop :=
  exists k : zvec, y = vadd x (vmul (real k) size).

(** Sum of the positive coordinates: how far the unit cube reaches along [e], times |e|. *)
Definition reach (e : vec) : R := Rmax 0 (vx e) + Rmax 0 (vy e) + Rmax 0 (vz e).
