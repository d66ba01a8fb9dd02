(** * Camera: model of /repo/src/camera/ (view.rs, film.rs, sample.rs, camera_trait.rs, pinhole.rs) *)
From Verif Require Export Num Geometry Colour Ray.

Section Camera.
  Context {N : Num} {T : Trig N}.
  Local Open Scope num_scope.

  (* camera/view.rs:25-33 *)
  Record View := mkView { view_point : Vec; view_direction : Vec; view_up : Vec; field_of_view : F }.
  (* camera/view.rs:33-42 *)
  Definition view_default : View := mkView (V3 f0 f0 f0) (V3 f0 f1 f0) (V3 f0 f0 f1) (fofZ 60).
  (* camera/film.rs:24-27: resolution = (width, height) *)
  Record Film := mkFilm { film_width : nat; film_height : nat }.
  (* camera/film.rs:29-35 *)
  Definition aspect_ratio (f : Film) : F := fofZ (Z.of_nat (film_width f)) / fofZ (Z.of_nat (film_height f)).

  (* pinhole.rs:28-35 *)
  Record Pinhole := mkPinhole { ph_view : View; ph_film : Film; ph_film_distance : F; ph_u : Vec }.
  Definition radians (deg : F) : F := deg * (fpi / fofZ 180).          (* f64::to_radians *)
  (* pinhole.rs:38-47 *)
  Definition pinhole_new (v : View) (f : Film) : Pinhole :=
    mkPinhole v f (f1 / ftan (radians (field_of_view v) / f2)) (vcross (view_direction v) (view_up v)).

  (* pinhole.rs:52-58; [x], [y] are the two usize values drawn.  `x % 0` panics. *)
  Definition gen_random_sample (c : Pinhole) (x y : nat) : outcome (nat * nat) :=
    let w := film_width (ph_film c) in
    let h := film_height (ph_film c) in
    if Nat.eqb w 0 || Nat.eqb h 0 then Crash else Ret (Nat.modulo x w, Nat.modulo y h).

  (* camera_trait.rs:43-47 *)
  Definition pixel_index (c : Pinhole) (pxl : nat * nat) : nat := film_width (ph_film c) * snd pxl + fst pxl.

  (* the film cell sizes, pinhole.rs:98-103 and 116-124: xlim = 2, ylim = height / width * xlim *)
  Definition film_ylim (f : Film) : F := fofZ (Z.of_nat (film_height f)) / fofZ (Z.of_nat (film_width f)) * f2.
  Definition film_dx (f : Film) : F := f2 / fofZ (Z.of_nat (film_width f)).
  Definition film_dy (f : Film) : F := film_ylim f / fofZ (Z.of_nat (film_height f)).

  (* pinhole.rs:60-112 (the debug assertions are not modelled).  For any float v, `v.floor() as usize` equals the
     saturating truncation of v itself: both are the floor of a non-negative v and 0 otherwise. *)
  Definition TINY24 : F := flit 1 (10 ^ 24).
  Definition TINY12 : F := flit 1 (10 ^ 12).
  Definition floor_usize (v : F) : Z := ftrunc 0 (2 ^ 64 - 1) v.
  Definition pixel_from_ray (c : Pinhole) (ray : Ray3D) : outcome ((Z * Z) * F) :=
    let v := ph_view c in
    if vlen2 (vsub (origin ray) (view_point v)) >? TINY24 then Crash else
    let normal := view_direction v in
    let cos := vdot normal (direction ray) in
    if fabs cos <? TINY12 then Ret ((0, 0)%Z, f0) else
    let s := vadd (view_point v) (vscale normal (ph_film_distance c)) in
    let ray_length := vdot (vsub s (origin ray)) normal / cos in
    let p := vscale (direction ray) ray_length in
    let x := vdot p (ph_u c) in
    let z := vdot p (view_up v) in
    if (fabs z >? f1) || (fabs x >? f1) then Ret ((0, 0)%Z, f0) else
    let x := (x + f1) / film_dx (ph_film c) in
    let y := (f1 - z) / film_dy (ph_film c) in
    Ret ((floor_usize x, floor_usize y), f1).

  (* pinhole.rs:116-143 *)
  Definition gen_ray (c : Pinhole) (p_film : nat * nat) : Ray * F :=
    let f := ph_film c in
    let v := ph_view c in
    let dx := film_dx f in
    let dy := film_dy f in
    let x := dx / f2 + fofZ (Z.of_nat (fst p_film)) * dx - f2 / f2 in
    let y := dy / f2 + fofZ (Z.of_nat (snd p_film)) * dy - film_ylim f / f2 in
    let direction :=
      vsub (vadd (vscale (view_direction v) (ph_film_distance c)) (vscale (ph_u c) x)) (vscale (view_up v) y) in
    (set_geometry ray_default (mkRay3D (view_point v) (vnormalized direction)), f1).
End Camera.
