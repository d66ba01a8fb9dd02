(** * Perez: model of Scene::add_perez_sky (/repo/src/scene.rs:102-186)

    The crate `solar` (sun positions, Perez' sky model) is external: a record of functions, with no assumption about them. *)
From Verif Require Export Num Geometry Colour Material Scene Primitives.

Section Perez.
  Context {N : Num} {T : Trig N} {E : Ext}.
  Local Open Scope num_scope.

  (* the crate solar, as used in scene.rs:115-175; [Place] is `Solar::new(latitude, longitude, standard_meridian)` in radians *)
  Definition Place : Type := F * F * F.
  Record Solar := {
    Date : Type;
    get_sky_func_standard_time : Place -> Date -> F -> F -> F -> Vec -> F;
    sun_position : Place -> Date -> option Vec;                (* of Time::Standard(date.day_of_year()) *)
    normal_extraterrestrial_radiation : Place -> Date -> F;     (* with unwrap_solar_time, scene.rs:159-160 *)
    precipitable_water_content : F -> F;
    air_mass : F -> F;
    sky_brightness : F -> F -> F -> F;
    sky_clearness : F -> F -> F -> F;
    clearness_category : F -> nat;
    direct_illuminance_ratio : F -> F -> F -> nat -> F
  }.
  (* f64::to_radians *)
  Definition to_radians (x : F) : F := x * (fpi / fofZ 180).
  (* scene.rs:141-156.  `(3. * PI / 180.).acos()` is the code's "3 degrees minimum". *)
  Definition sun_zenith (cos_zenit : F) : F :=
    if cos_zenit <=? f0 then fpi / f2
    else if flit 9986295347545738 10000000000000000 <=? cos_zenit then facos (fofZ 3 * fpi / fofZ 180)
    else facos cos_zenit.
  (* scene.rs:137-139 *)
  Definition sun_angle : F := to_radians (flit 533 1000).
  Definition sun_omega : F := let tan_half_alpha := ftan (sun_angle / f2) in tan_half_alpha * tan_half_alpha * fpi.
  (* scene.rs:157-174 *)
  Definition sun_dir_illum (L : Solar) (place : Place) (date : Date L) (diffuse direct : F) (position : Vec) : F :=
    let zenith := sun_zenith (vz position) in
    let apwc := precipitable_water_content L (fofZ 11) in
    let mass := air_mass L zenith in
    let extraterrestrial := normal_extraterrestrial_radiation L place date in
    let brightness := fclamp (sky_brightness L diffuse mass extraterrestrial) (flit 1 100) (fofZ 9000000000) in
    let clearness := fclamp (sky_clearness L diffuse direct zenith) (- fofZ 9000000000) (flit 119 10) in
    let index := clearness_category L clearness in
    direct * direct_illuminance_ratio L apwc zenith brightness index.
  (* scene.rs:102-186 *)
  Definition add_perez_sky (L : Solar) (s : Scene) (date : Date L) (latitude longitude standard_meridian diffuse direct : F) : outcome Scene :=
    let place := (to_radians latitude, to_radians longitude, to_radians standard_meridian) in
    let s := set_sky s (Some (get_sky_func_standard_time L place date (fofZ 11) diffuse direct)) in
    match sun_position L place date with
    | None => Ret s                                                    (* night *)
    | Some position =>
        let sun_brightness := sun_dir_illum L place date diffuse direct position / sun_omega / WHITE_EFFICACY in
        let '(s, sun_mat) := push_material s (Light (gray sun_brightness)) in
        push_object s sun_mat sun_mat (PSource (mkSource position sun_angle))
    end.
End Perez.
