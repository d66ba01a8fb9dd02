(** * SpecLighting: the same scene under another lighting (real arithmetic) *)
From Coq Require Export Reals.
From Verif Require Import NumR Geometry Colour Material Scene Primitives.
Open Scope R_scope.

(** what shines: the emission of each luminous material (by its number in the scene) and the brightness of the sky by direction *)
Record Lighting := mkLighting { lamp : nat -> @Spectrum NumR; heaven : @Vec NumR -> R }.
(** the lighting of a scene as it is *)
Definition own_lighting (s : @Scene NumR) : Lighting :=
  mkLighting (fun i => match nth_error (sc_materials s) i with Some (Light c) => c | _ => BLACK end)
    (fun d => match sc_sky s with Some sky => sky d | None => 0 end).
Definition relight_material (w : Lighting) (i : nat) (m : @Material NumR) : @Material NumR :=
  match m with Light _ => Light (lamp w i) | _ => m end.
Fixpoint number_from {A B} (f : nat -> A -> B) (i : nat) (l : list A) : list B :=
  match l with [] => [] | a :: l => f i a :: number_from f (S i) l end.
(** the same shapes and other materials, the same accelerator, the same lights; a scene without sky stays without *)
Definition relight (w : Lighting) (s : @Scene NumR) : @Scene NumR :=
  mkScene (sc_arrays s) (number_from (relight_material w) 0 (sc_materials s)) (sc_lights s) (sc_distant_lights s) (sc_accelerator s)
    (sc_sky_colour s) (match sc_sky s with Some _ => Some (heaven w) | None => None end).

(** a mixture of two lightings: a times the first and b times the second *)
Definition spectrum_mix (a : R) (x : @Spectrum NumR) (b : R) (y : @Spectrum NumR) : @Spectrum NumR :=
  mkS (N := NumR) (a * sr x + b * sr y : R) (a * sg x + b * sg y : R) (a * sb x + b * sb y : R).
Definition mix (a : R) (u : Lighting) (b : R) (v : Lighting) : Lighting :=
  mkLighting (fun i => spectrum_mix a (lamp u i) b (lamp v i)) (fun d => a * heaven u d + b * heaven v d).
Definition linear (f : Lighting -> @Spectrum NumR) : Prop :=
  forall a u b v, f (mix a u b v) = spectrum_mix a (f u) b (f v).

(** every light of the scene shines on both sides (the other kind misbehaves: C48_dark_side_refuted) *)
Definition shines_both_sides (s : @Scene NumR) : Prop := forall l, In l (sc_lights s ++ sc_distant_lights s) ->
  (exists c, nth_error (sc_materials s) (ob_front l) = Some (Light c)) /\ (exists c, nth_error (sc_materials s) (ob_back l) = Some (Light c)).

(** the result of a run for every lighting: the same panic, the same exhaustion, or results given by one function of the lighting *)
Definition uniform {A} (go : Lighting -> outcome A) (Q : (Lighting -> A) -> Prop) : Prop :=
  (forall w, go w = Crash) \/ (forall w, go w = Stuck) \/ (exists f, Q f /\ forall w, go w = Ret (f w)).
