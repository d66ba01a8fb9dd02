(** * SpecColour: the specification against which the colour maps are proved. *)
From Verif Require Import NumR Colour ColourTables.
Open Scope R_scope.

Notation SpecR := (@Spectrum NumR).

(** The polyline through the points (min + i*(max-min)/(n-1), map[i]), independent of the search loop of the code. *)
Definition knot (min max : R) (n i : nat) : R := min + INR i * ((max - min) / INR (n - 1)).
Definition lerp (a b : SpecR) (w : R) : SpecR :=
  mkS (N := NumR) ((1 - w) * sr a + w * sr b) ((1 - w) * sg a + w * sg b) ((1 - w) * sb a + w * sb b).

(** a spectrum of real channels *)
Definition rgb (r g b : R) : SpecR := mkS (N := NumR) r g b.

(** all three channels in an interval *)
Definition in_range (lo hi : R) (c : SpecR) : Prop :=
  lo <= sr c <= hi /\ lo <= sg c <= hi /\ lo <= sb c <= hi.

(** the shipped scales (the match of image.rs:327-333 and :395-401), as floats of any arithmetic *)
Definition rowN {N : Num} (r : zrow) : Spectrum :=
  let '(a, b, c) := r in mkS (flit a table_den) (flit b table_den) (flit c table_den).
Definition tables : list (list zrow) := [radiance_table; inferno_table; magma_table; plasma_table; viridis_table].
