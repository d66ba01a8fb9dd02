(** * Colourmap: model of /repo/src/colourmap/mod.rs *)
From Verif Require Export Num Colour.

Section Map.
  Context {N : Num}.
  Local Open Scope num_scope.

  (** The colour-independent part of the two functions.  [find_bin n x min max] performs the loop
      `for i in 1..map.len()` of mod.rs:66-77 / 97-104 from index [i] on, with [fuel] iterations left. *)
  Fixpoint find_bin (fuel i : nat) (x min delta : F) : option (nat * F) :=
    match fuel with
    | O => None                                            (* loop exhausted: `unreachable!()`, :78/:105 *)
    | S k =>
        let bin_start := min + fofZ (Z.of_nat (i - 1)) * delta in
        let bin_end := bin_start + delta in
        if x <=? bin_end
        then Some (i, (x - bin_start) / delta)
        else find_bin k (S i) x min delta
    end.

  (** mod.rs:83-106.  [map.len() - 1] on an empty map underflows (panic in debug; and `map[0]`/`expect`
      panic before); an empty map panics in every path except when x is NaN or min >= max ... all panic. *)
  Definition map_linear_spectrum (x min max : F) (map : list Spectrum) : res Spectrum :=
    if x <=? min then of_opt (hd_error map)                (* map[0] *)
    else if x >=? max then of_opt (hd_error (rev map))     (* *map.last().expect(..) *)
    else if Nat.eqb (length map) 0 then Panic              (* usize underflow of map.len() - 1 *)
    else
      let n := length map in
      let delta := (max - min) / fofZ (Z.of_nat (n - 1)) in
      do (i, lam) <- of_opt (find_bin (n - 1) 1 x min delta) ;;
      do a <- of_opt (nth_error map (i - 1)) ;;
      do b <- of_opt (nth_error map i) ;;
      Ok_ (sadd a (smulf (ssub b a) lam)).

  (** mod.rs:55-79: same function on `[Float;3]`, written out channel by channel. *)
  Definition map_linear_colour (x min max : F) (map : list Spectrum) : res Spectrum :=
    if x <=? min then of_opt (hd_error map)
    else if x >=? max then of_opt (hd_error (rev map))
    else if Nat.eqb (length map) 0 then Panic
    else
      let n := length map in
      let delta := (max - min) / fofZ (Z.of_nat (n - 1)) in
      do (i, lam) <- of_opt (find_bin (n - 1) 1 x min delta) ;;
      do a <- of_opt (nth_error map (i - 1)) ;;
      do b <- of_opt (nth_error map i) ;;
      let r := sr a + (sr b - sr a) * lam in
      let g := sg a + (sg b - sg a) * lam in
      let bl := sb a + (sb b - sb a) * lam in
      Ok_ (mkS r g bl).
End Map.
