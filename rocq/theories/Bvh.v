(** * Bvh: model of /repo/src/bvh.rs

    Parametric in the arithmetic and in the external routines gathered in [Ext]:
    `BBox3D::surface_area`, `BBox3D::max_extent`, `BBox3D::intersect` (geometry3d) and the standard
    library's `sort_unstable_by` and `select_nth_unstable_by`. *)
From Verif Require Export Num Geometry Triangle Ray.

Section Bvh.
  Context {N : Num}.
  Local Open Scope num_scope.

  (* bvh.rs:64-68 *)
  Record ObjectInfo := mkOI { oi_index : nat; oi_bounds : BBox; oi_centroid : Vec }.
  (* bvh.rs:71-79 *)
  Definition object_info (index : nat) (t : Triangle) : ObjectInfo :=
    let b := world_bounds t in
    mkOI index b (vscale (vadd (bmax b) (bmin b)) (flit 1 2)).

  Class Ext := {
    surface_area : BBox -> F;
    max_extent : BBox -> Axis;
    bbox_hit : BBox -> Ray3D -> Vec -> bool;       (* BBox3D::intersect(&ray, &inv_dir) *)
    sort_by : (ObjectInfo -> ObjectInfo -> comparison) -> list ObjectInfo -> list ObjectInfo;
    select_by : nat -> (ObjectInfo -> ObjectInfo -> comparison) -> list ObjectInfo -> list ObjectInfo
  }.

  (* bvh.rs:40-61.  `.floor() as usize`: the cast truncates and saturates at 0, so the floor is absorbed. *)
  Definition USIZE_MAX : Z := (2 ^ 64 - 1)%Z.
  Definition N_BUCKETS : nat := 12.                                    (* bvh.rs:197 *)
  Definition get_bucket_index (centroid : Vec) (len_axis : F) (split_axis : Axis) (min_centroid : Vec) : nat :=
    let z := ftrunc 0 USIZE_MAX ((comp split_axis centroid - comp split_axis min_centroid)
                                   * fofZ (Z.of_nat N_BUCKETS) / len_axis) in
    if (Z.of_nat N_BUCKETS <=? z)%Z then (N_BUCKETS - 1)%nat else Z.to_nat z.

  (* bvh.rs:81-91, 353-358 *)
  Inductive Node :=
  | Leaf (bounds : BBox) (first_prim_offset n_prims : nat)
  | Inner (bounds : BBox) (split_axis : Axis) (child1 child2 : Node).
  (* bvh.rs:94-99 *)
  Definition node_bounds (n : Node) : BBox := match n with Leaf b _ _ => b | Inner b _ _ _ => b end.
  (* bvh.rs:109-117 *)
  Definition new_interior (ax : Axis) (c1 c2 : Node) : Node :=
    Inner (box_union (node_bounds c1) (node_bounds c2)) ax c1 c2.

  (* the four parallel vectors of the scene (scene.rs:43-51) and the four `ordered_*` vectors *)
  Record Arrays := mkArr { a_tri : list Triangle; a_front : list nat; a_back : list nat; a_norm : list (Vec * Vec * Vec) }.

  (* bvh.rs:152-158 (same code at 206-212, 308-314): `triangles[index]`, ... panic when out of bounds *)
  Definition push_one (scene : Arrays) (index : nat) (ord : Arrays) : option Arrays :=
    match nth_error (a_tri scene) index, nth_error (a_back scene) index,
          nth_error (a_front scene) index, nth_error (a_norm scene) index with
    | Some t, Some b, Some f, Some n =>
        Some (mkArr (a_tri ord ++ [t]) (a_front ord ++ [f]) (a_back ord ++ [b]) (a_norm ord ++ [n]))
    | _, _, _, _ => None
    end.
  Fixpoint push_all (scene : Arrays) (infos : list ObjectInfo) (ord : Arrays) : option Arrays :=
    match infos with
    | [] => Some ord
    | i :: rest => match push_one scene (oi_index i) ord with
                   | Some ord' => push_all scene rest ord'
                   | None => None
                   end
    end.

  (* bvh.rs:177-194 *)
  Definition cmp_float (a b : F) : comparison := if a <? b then Lt else if a >? b then Gt else Eq.
  Definition cmp_centroids (ax : Axis) (a b : ObjectInfo) : comparison :=
    cmp_float (comp ax (oi_centroid a)) (comp ax (oi_centroid b)).

  Context {E : Ext}.

  Definition bounds_of (i : ObjectInfo) (rest : list ObjectInfo) : BBox :=      (* bvh.rs:141-147 *)
    fold_left (fun b x => box_union b (oi_bounds x)) rest (oi_bounds i).
  Definition centroid_bounds (i : ObjectInfo) (rest : list ObjectInfo) : BBox := (* bvh.rs:163-166 *)
    fold_left (fun b x => box_union_point b (oi_centroid x)) rest (box_point (oi_centroid i)).

  (* bvh.rs:34-37 and 224-256 *)
  Definition Bucket := (nat * option BBox)%type.
  Definition register (bi : nat) (c : Vec) (bs : list Bucket) : list Bucket :=
    match nth_error bs bi with
    | Some (n, ob) =>
        firstn bi bs ++ (S n, Some (match ob with Some b => box_union_point b c | None => box_point c end)) :: skipn (S bi) bs
    | None => bs                 (* unreachable: bucket indices are below N_BUCKETS *)
    end.
  Definition fill_buckets (len_axis : F) (ax : Axis) (minc : Vec) (infos : list ObjectInfo) : list Bucket :=
    fold_left (fun bs i => register (get_bucket_index (oi_centroid i) len_axis ax minc) (oi_centroid i) bs)
              infos (repeat (0, None) N_BUCKETS).

  (* bvh.rs:263-287: union and count of a run of buckets, starting from a mandatory one *)
  Definition merge_buckets (init : Bucket) (l : list Bucket) : option (nat * BBox) :=
    match snd init with
    | None => None                                                 (* `.bounds.unwrap()` panics *)
    | Some b0 => Some (fold_left (fun acc (x : Bucket) => match snd x with
                                         | Some b => ((fst acc + fst x)%nat, box_union (snd acc) b)
                                         | None => acc end) l (fst init, b0))
    end.
  Definition bucket0 : Bucket := (0%nat, None).
  (* bvh.rs:258-299 for one value of i *)
  Definition split_cost (bs : list Bucket) (bounds : BBox) (i : nat) : option F :=
    match merge_buckets (nth 0 bs bucket0) (skipn 1 (firstn (i + 1) bs)),
          merge_buckets (nth (N_BUCKETS - 1) bs bucket0) (skipn (i + 1) (firstn (N_BUCKETS - 1) bs)) with
    | Some (nb, b), Some (na, a) =>
        Some (flit 10 1 + (fofZ (Z.of_nat nb) * surface_area b + fofZ (Z.of_nat na) * surface_area a) / surface_area bounds)
    | _, _ => None
    end.
  (* Float::MAX = (2^53 - 1) * 2^971 *)
  Definition FMAX : F := flit ((2 ^ 53 - 1) * 2 ^ 971) 1.
  Fixpoint min_cost_loop (bs : list Bucket) (bounds : BBox) (idx : list nat) (best : F * nat) : option (F * nat) :=
    match idx with
    | [] => Some best
    | i :: rest => match split_cost bs bounds i with
                   | None => None
                   | Some c => min_cost_loop bs bounds rest (if c <? fst best then (c, i) else best)
                   end
    end.

  (* bvh.rs:308-325: `mid` = number of leading elements in buckets <= min_cost_bucket; None if there is none *)
  Fixpoint leading (p : ObjectInfo -> bool) (l : list ObjectInfo) : nat :=
    match l with [] => 0 | x :: r => if p x then S (leading p r) else 0 end.

  Inductive Decision :=
  | MakeLeaf
  | Split (ax : Axis) (reordered : list ObjectInfo) (mid : nat).

  (* bvh.rs:149-340: everything between the bounds and the recursive calls; None is a panic *)
  Definition decide (i : ObjectInfo) (rest : list ObjectInfo) : option Decision :=
    let infos := i :: rest in
    let n := length infos in
    if Nat.eqb n 1 then Some MakeLeaf else
    let cb := centroid_bounds i rest in
    let ax := max_extent cb in
    let len_axis := comp ax (bmax cb) - comp ax (bmin cb) in
    if len_axis <? flit 1 100000000 then Some MakeLeaf else
    if Nat.leb n 4 then
      let mid := Nat.div2 n in
      Some (Split ax (select_by mid (cmp_centroids ax) infos) mid)
    else
      let bs := fill_buckets len_axis ax (bmin cb) infos in
      match min_cost_loop bs (bounds_of i rest) (seq 0 (N_BUCKETS - 1)) (FMAX, 0%nat) with
      | None => None
      | Some (min_cost, min_bucket) =>
          if Nat.ltb 24 n || (min_cost <? fofZ (Z.of_nat n)) then
            let sorted := sort_by (cmp_centroids ax) infos in
            let mid := leading (fun x => Nat.leb (get_bucket_index (oi_centroid x) len_axis ax (bmin cb)) min_bucket) sorted in
            if Nat.eqb mid 0 then None                              (* mid.unwrap() on None *)
            else Some (Split ax sorted mid)
          else Some MakeLeaf
      end.

  (* bvh.rs:120-347.  The slice primitives_info[start..end] is the list [infos]; sorting and selection only touch that
     slice, and the recursive calls work on its two parts.  An empty range never arises (theorem C02_build_total);
     it would index past the slice. *)
  Fixpoint recursive_build (fuel : nat) (scene : Arrays) (infos : list ObjectInfo) (ord : Arrays) : outcome (Node * Arrays) :=
    match fuel with
    | O => Stuck
    | S k =>
        match infos with
        | [] => Crash
        | i :: rest =>
            match decide i rest with
            | None => Crash
            | Some MakeLeaf =>
                run ord' <- ret_opt (push_all scene infos ord) ;;
                Ret (Leaf (bounds_of i rest) (length (a_tri ord)) (length infos), ord')
            | Some (Split ax l mid) =>
                run (c1, ord1) <- recursive_build k scene (firstn mid l) ord ;;
                run (c2, ord2) <- recursive_build k scene (skipn mid l) ord1 ;;
                Ret (new_interior ax c1 c2, ord2)
            end
        end
    end.

  (* `as i16`, `as i32`: two's complement wrap-around *)
  Definition as_signed (bits : Z) (z : Z) : Z := ((z + 2 ^ (bits - 1)) mod 2 ^ bits - 2 ^ (bits - 1))%Z.
  (* `as usize` of a signed integer *)
  Definition as_usize (z : Z) : Z := (z mod 2 ^ 64)%Z.

  (* bvh.rs:361-379 *)
  Record FlatNode := mkFlat { f_bounds : BBox; f_nprims : Z; f_axis : Axis; f_next : Z }.
  Definition is_leaf (n : FlatNode) : bool := (0 <? f_nprims n)%Z.     (* bvh.rs:382-384 *)

  Definition set_next (i : nat) (z : Z) (nodes : list FlatNode) : list FlatNode :=
    match nth_error nodes i with
    | Some n => firstn i nodes ++ mkFlat (f_bounds n) (f_nprims n) (f_axis n) z :: skipn (S i) nodes
    | None => nodes
    end.

  (* bvh.rs:449-480 *)
  Fixpoint flatten_node (nd : Node) (nodes : list FlatNode) : nat * list FlatNode :=
    let this_offset := length nodes in
    match nd with
    | Leaf b first n =>
        (this_offset, nodes ++ [mkFlat b (as_signed 16 (Z.of_nat n)) AX (as_signed 32 (Z.of_nat first))])
    | Inner b ax c1 c2 =>
        let nodes := nodes ++ [mkFlat b 0 ax 0] in
        let '(_, nodes) := flatten_node c1 nodes in
        let '(off2, nodes) := flatten_node c2 nodes in
        (this_offset, set_next this_offset (as_signed 32 (Z.of_nat off2)) nodes)
    end.

  (* bvh.rs:393-447: STEP 1-3.  Returns the flat nodes and the reordered scene arrays. *)
  Definition infos_of (ts : list Triangle) : list ObjectInfo :=
    map (fun p => object_info (fst p) (snd p)) (combine (seq 0 (length ts)) ts).
  Definition empty_arrays : Arrays := mkArr [] [] [] [].
  Definition bvh_new (fuel : nat) (scene : Arrays) : outcome (list FlatNode * Arrays) :=
    if Nat.eqb (length (a_tri scene)) 0 then Ret ([], scene)
    else
      run (root, ord) <- recursive_build fuel scene (infos_of (a_tri scene)) empty_arrays ;;
      Ret (snd (flatten_node root []), ord).

  (* slice / Vec indexing with a usize *)
  Definition nthZ {A} (l : list A) (z : Z) : option A :=
    if (0 <=? z)%Z && (z <? Z.of_nat (length l))%Z then nth_error l (Z.to_nat z) else None.
  Definition sliceZ {A} (l : list A) (a b : Z) : option (list A) :=   (* &l[a..b] *)
    if (0 <=? a)%Z && (a <=? b)%Z && (b <=? Z.of_nat (length l))%Z
    then Some (firstn (Z.to_nat (b - a)) (skipn (Z.to_nat a) l)) else None.

  (* bvh.rs:504-509 / 646-651 *)
  Definition inv_dir (r : Ray3D) : Vec :=
    V3 (f1 / vx (direction r)) (f1 / vy (direction r)) (f1 / vz (direction r)).
  Definition dir_is_neg (r : Ray3D) (ax : Axis) : bool := comp ax (inv_dir r) <? f0.

  (* `nodes_to_visit.truncate(0)`: bvh.rs:497 and 641 *)
  Definition truncate0 (aux : list Z) : list Z := firstn 0 aux.

  (* ---- closest hit: bvh.rs:485-628 ---- *)
  Definition MIN_T7 : F := flit 1 10000000.                           (* bvh.rs:491 *)
  Record Best := mkBest { b_index : option Z; b_t2 : F; b_info : option IntersectionInfo }.

  (* bvh.rs:526-546: the loop over the triangles of one leaf; n is the index of the first one *)
  Fixpoint leaf_loop (ray : Ray3D) (n : Z) (ts : list Triangle) (best : Best) : Best :=
    match ts with
    | [] => best
    | t :: rest =>
        let best' :=
          match triangle_intersect t ray with
          | Some info =>
              let t2 := vlen2 (vsub (i_p info) (origin ray)) in
              if (t2 >? MIN_T7) && (t2 <? b_t2 best) then mkBest (Some n) t2 (Some info) else best
          | None => best
          end in
        leaf_loop ray (n + 1)%Z rest best'
    end.

  (* bvh.rs:513-612: the main loop; [stack] is nodes_to_visit with its top first *)
  Fixpoint isect_loop (fuel : nat) (nodes : list FlatNode) (prims : list Triangle) (ray : Ray3D)
           (cur : Z) (stack : list Z) (best : Best) : outcome (Best * list Z) :=
    match fuel with
    | O => Stuck
    | S k =>
        match nthZ nodes cur with
        | None => Crash                                              (* self.nodes[current_node] *)
        | Some node =>
            if bbox_hit (f_bounds node) ray (inv_dir ray) then
              if is_leaf node then
                let ini := as_usize (f_next node) in
                let fin := (ini + as_usize (f_nprims node))%Z in
                match sliceZ prims ini fin with
                | None => Crash                                      (* &primitives[ini..fin] *)
                | Some ts =>
                    let best' := leaf_loop ray ini ts best in
                    match stack with
                    | i :: st => isect_loop k nodes prims ray i st best'
                    | [] => Ret (best', [])
                    end
                end
              else if dir_is_neg ray (f_axis node)
              then isect_loop k nodes prims ray (as_usize (f_next node)) ((cur + 1)%Z :: stack) best
              else isect_loop k nodes prims ray (cur + 1)%Z (as_usize (f_next node) :: stack) best
            else
              match stack with
              | i :: st => isect_loop k nodes prims ray i st best
              | [] => Ret (best, [])
              end
        end
    end.

  (* bvh.rs:485-628.  [aux] is the caller's reusable nodes_to_visit vector; the result contains its new content. *)
  Definition intersect (fuel : nat) (nodes : list FlatNode) (prims : list Triangle) (r : Ray) (aux : list Z)
    : outcome (option Z * Ray * list Z) :=
    match nodes with
    | [] => Ret (None, r, aux)
    | _ =>
        let g := r_geometry r in
        run (best, aux') <- isect_loop fuel nodes prims g 0%Z (truncate0 aux) (mkBest None FMAX None) ;;
        match b_index best, b_info best with
        | Some i, Some info =>
            let t := fsqrt (b_t2 best) in
            Ret (Some i,
                 set_interaction r (mkInter (project g t) (vscale (direction g) (- f1)) info),
                 aux')
        | _, _ => Ret (None, r, aux')
        end
    end.

  (* ---- shadow query: bvh.rs:631-748 ---- *)
  Definition MIN_T6 : F := flit 1 1000000.                            (* bvh.rs:644 *)
  Definition blocks (ray : Ray3D) (distance_squared : F) (t : Triangle) : bool :=   (* bvh.rs:665-675 *)
    match simple_triangle_intersect t ray with
    | Some p =>
        let t2 := vlen2 (vsub p (origin ray)) in
        (t2 >? MIN_T6) && (t2 + MIN_T6 <? distance_squared) && (fabs (distance_squared - t2) >? flit 1 10000)
    | None => false
    end.
  Fixpoint shadow_loop (fuel : nat) (nodes : list FlatNode) (prims : list Triangle) (ray : Ray3D) (d2 : F)
           (cur : Z) (stack : list Z) : outcome (bool * list Z) :=
    match fuel with
    | O => Stuck
    | S k =>
        match nthZ nodes cur with
        | None => Crash
        | Some node =>
            if bbox_hit (f_bounds node) ray (inv_dir ray) then
              if is_leaf node then
                let ini := as_usize (f_next node) in
                let fin := (ini + as_usize (f_nprims node))%Z in
                match sliceZ prims ini fin with
                | None => Crash
                | Some ts =>
                    if existsb (blocks ray d2) ts then Ret (false, stack)
                    else match stack with
                         | i :: st => shadow_loop k nodes prims ray d2 i st
                         | [] => Ret (true, [])
                         end
                end
              else if dir_is_neg ray (f_axis node)
              then shadow_loop k nodes prims ray d2 (as_usize (f_next node)) ((cur + 1)%Z :: stack)
              else shadow_loop k nodes prims ray d2 (cur + 1)%Z (as_usize (f_next node) :: stack)
            else
              match stack with
              | i :: st => shadow_loop k nodes prims ray d2 i st
              | [] => Ret (true, [])
              end
        end
    end.
  Definition unobstructed_distance (fuel : nat) (nodes : list FlatNode) (prims : list Triangle) (ray : Ray3D) (d2 : F)
    (aux : list Z) : outcome (bool * list Z) :=
    match nodes with
    | [] => Ret (true, aux)
    | _ => shadow_loop fuel nodes prims ray d2 0%Z (truncate0 aux)
    end.
End Bvh.
