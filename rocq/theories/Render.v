(** * Render: model of RayTracer::render, /repo/src/ray_tracer.rs:355-407

    The pixels are divided in chunks of 128; each chunk is the work of one worker, which owns a fresh helper and a fresh
    generator.  With the feature `parallel` the workers run in parallel (rayon), without it one after the other.  A schedule is
    a list of worker numbers: at each moment that worker does its next step, which is either tracing its next pixel or storing
    the colour it has just traced in the shared pixel array.  (Rust's borrow checker guarantees that the workers share no other
    mutable state than the pixel array, of which each one has its own slice, and the two progress counters behind mutexes, which
    only influence the messages printed and are not modelled.)  The camera is its resolution and its gen_ray method. *)
From Verif Require Export RayTracer Image.

Section Render.
  Context {N : Num} {T : Trig N} {E : Ext} {RG : Gen N} {O : Geo}.
  Variables (nest fuel : nat) (c : Tracer) (s : Scene) (width height : nat) (gen_ray : nat * nat -> Ray * F).

  (* ray_tracer.rs:377-379: pindex, aux and rng of a chunk; [w_left]: what is left of the loop of line 381; [w_traced]: the colour
     traced (line 387) but not yet stored (line 388) *)
  Record Worker := mkWorker { w_pindex : nat; w_left : nat; w_traced : option Spectrum; w_aux : Helper; w_gen : G }.
  Record Rendering := mkRendering { rd_pixels : list Spectrum; rd_workers : list Worker }.

  (* ray_tracer.rs:362-363: pixels.chunks_mut(128) *)
  Definition CHUNK : nat := 128.
  Definition n_chunks (total : nat) : nat := ((total + CHUNK - 1) / CHUNK)%nat.
  Definition chunk_length (total k : nat) : nat := Nat.min CHUNK (total - k * CHUNK).
  (* ray_tracer.rs:359-379; [seed k] is the generator that get_rng() (rand.rs:25-28, from entropy) gives to chunk k *)
  Definition render_start (seed : nat -> G) : Rendering :=
    let total := (width * height)%nat in
    mkRendering (repeat BLACK total)
      (map (fun k => mkWorker (k * CHUNK) (chunk_length total k) None helper_default (seed k)) (seq 0 (n_chunks total))).
  (* ray_tracer.rs:381-402: one step of the worker k *)
  Definition render_step (k : nat) (st : Rendering) : outcome Rendering :=
    match nth_error (rd_workers st) k with
    | None => Ret st
    | Some w =>
        match w_traced w with
        | Some v =>
            Ret (mkRendering (set_nth (w_pindex w) v (rd_pixels st))
                   (set_nth k (mkWorker (S (w_pindex w)) (w_left w - 1) None (w_aux w) (w_gen w)) (rd_workers st)))
        | None =>
            if Nat.eqb (w_left w) 0 then Ret st
            else
              run (v, aux, g) <- render_pixel nest fuel c s gen_ray width (w_pindex w) (w_aux w) (w_gen w) ;;
              Ret (mkRendering (rd_pixels st) (set_nth k (mkWorker (w_pindex w) (w_left w) (Some v) aux g) (rd_workers st)))
        end
    end.
  Fixpoint render_steps (ks : list nat) (st : Rendering) : outcome Rendering :=
    match ks with
    | [] => Ret st
    | k :: ks => run st <- render_step k st ;; render_steps ks st
    end.
  (* the for_each of line 376 is over *)
  Definition render_done (st : Rendering) : Prop := Forall (fun w => w_left w = 0%nat /\ w_traced w = None) (rd_workers st).
  (* without `parallel`: the chunks one after the other *)
  Definition one_by_one : list nat :=
    let total := (width * height)%nat in flat_map (fun k => repeat k (2 * chunk_length total k)) (seq 0 (n_chunks total)).
  (* ray_tracer.rs:356-407 without `parallel` *)
  Definition render_sequential (seed : nat -> G) : outcome ImageBuffer :=
    run st <- render_steps one_by_one (render_start seed) ;; from_pixels width height (rd_pixels st).
End Render.
