(** * Model of src/mondrian_coarse.hpp

    Line numbers are those of mondrian_coarse.hpp. The buffer (l.235) is described by what is stored in it: the nodes and roots are a
    [Mondrian_Model.forest], and the two fields that its nodes do not have ([forced_extend], [fading_score]) are lists indexed like the
    nodes. Simplifications: the number of nodes that fit in the buffer (l.2865) is a parameter; the metrics of a tree are left out (they are
    updated by l.2046 and read by nothing that is called); [print_nodes] is [false] (the default) and [DEBUG] is not defined; features are
    of the type of the operations, [func::exp], [func::log] and the draws are parameters; loops and recursions take a number of steps.
    Not modelled because nothing calls them, or only code under [if(false && ...)] does: [split_leaf], [tree_reset], [tree_depth], [relocate_node], [tree_add],
    [tree_delete], [tree_chop], [trees_chop], [tree_reshape], [tree_split], [average_tree_size] and [otter]. The self-check and the printing functions are in [Coarse_Print_Model].
    The functions of the other Mondrian forests that this file repeats word for word are not written again: [parent_time], [distances],
    [joined_box], [sample_block] (l.1999-2011), [insert_above] (l.361-401 without the counters of the new parent), [update_box] (l.405-410), [compute_eta],
    [smooth], [compute_posterior_mean] (l.2074-2097), the recursive [update_posterior_count] (l.2216-2233), and [Unbound_Model.choose_split] (l.334-351). *)
From Coq Require Import ZArith List Bool.
From Verif Require Import CppBase NumOps Utils_Model Mondrian_Model.
From Verif Require Unbound_Model.
Import ListNotations.
Local Open Scope Z_scope.

(** l.129-158. *)
Definition COBBLE_MANAGEMENT := 0.
Definition OPTIMISTIC_COBBLE_MANAGEMENT := 1.
Definition ROBUR_MANAGEMENT := 2.
Definition PHOENIX_MANAGEMENT := 3.
Definition PAUSING_PHOENIX_MANAGEMENT := 4.
Definition FE_DISTRIBUTION_ZERO := 0.
Definition FE_DISTRIBUTION_SPLIT := 1.
Definition FE_DISTRIBUTION_PROPORTIONAL := 2.
Definition FE_DISTRIBUTION_DECREMENT := 3.
Definition SPLIT_TRIGGER_NONE := 0.
Definition SPLIT_TRIGGER_POSITIVE := 1.
Definition SPLIT_TRIGGER_TOTAL := 2.
Definition SPLIT_TRIGGER_SFE := 3.
Definition SPLIT_HELPER_NONE := 0.
Definition SPLIT_HELPER_AVG := 1.
Definition SPLIT_HELPER_WEIGHTED := 2.
Definition EXTEND_NONE := 0.
Definition EXTEND_ORIGINAL := 1.
Definition EXTEND_GHOST := 2.
Definition EXTEND_PARTIAL_UPDATE := 3.
Definition EXTEND_COUNTER_NO_UPDATE := 4.
Definition EXTEND_BARYCENTER := 5.
Definition TRIM_NONE := 0.
Definition TRIM_RANDOM := 1.
Definition TRIM_FADING := 2.
Definition TRIM_COUNT := 3.
(** The default of [max_stack_size]. *)
Definition max_stack_size := 100.

(** The template and constructor arguments, [node_count], and whether [UNBOUND_OPTIMIZE] is defined. *)
Record config (O : ops) : Type := {
  c_trees : Z; c_features : Z; c_labels : Z; c_nodes : Z;
  c_life : num O; c_base : num O; c_discount : num O;
  c_manage : Z; c_size_limit : Z; c_fe_dist : Z; c_fe_trigger : Z;
  c_fe_param : num O; c_fading : num O; c_helper : Z; c_extend : Z; c_trim : Z; c_max_trim : num O;
  c_optimize : bool }.

Section Coarse.
  Variable O : ops.
  Variable exp_ log_ : num O -> num O.
  Variable rnd : nat -> num O.
  Variable c : config O.
  Local Notation n_ := (nofZ O).
  Local Notation node := (node O).
  Local Notation forest := (forest O).
  Local Notation tree_count := (c_trees O c).
  Local Notation feature_count := (c_features O c).
  Local Notation label_count := (c_labels O c).
  Local Notation node_count := (c_nodes O c).
  Local Notation lifetime := (c_life O c).
  Local Notation manage := (c_manage O c).
  Local Notation extend_type := (c_extend O c).
  Local Notation trim_type := (c_trim O c).
  Local Notation half := (ndiv O (n_ 1) (n_ 2)).

  (** l.182-262. [size] and [sum_features] are never initialised; [last] is the static variable of [available_node]. *)
  Record coarse : Type := mkCoarse {
    fr : forest;
    forced : list Z;
    fading : list (num O);
    limit : list Z;
    size : list (option Z);
    sum_features : list (option (num O));
    count_points : num O;
    avail : Z;
    last : Z;
    full : Z;
    total : Z }.
  Definition with_fr (s : coarse) (f : forest) : coarse :=
    mkCoarse f (forced s) (fading s) (limit s) (size s) (sum_features s) (count_points s) (avail s) (last s) (full s) (total s).
  Definition with_forced (s : coarse) (x : list Z) : coarse :=
    mkCoarse (fr s) x (fading s) (limit s) (size s) (sum_features s) (count_points s) (avail s) (last s) (full s) (total s).
  Definition with_fading (s : coarse) (x : list (num O)) : coarse :=
    mkCoarse (fr s) (forced s) x (limit s) (size s) (sum_features s) (count_points s) (avail s) (last s) (full s) (total s).
  Definition with_sums (s : coarse) (x : list (option (num O))) (p : num O) : coarse :=
    mkCoarse (fr s) (forced s) (fading s) (limit s) (size s) x p (avail s) (last s) (full s) (total s).
  Definition with_avail (s : coarse) (x : Z) : coarse :=
    mkCoarse (fr s) (forced s) (fading s) (limit s) (size s) (sum_features s) (count_points s) x (last s) (full s) (total s).
  Definition with_last (s : coarse) (x : Z) : coarse :=
    mkCoarse (fr s) (forced s) (fading s) (limit s) (size s) (sum_features s) (count_points s) (avail s) x (full s) (total s).
  Definition with_full (s : coarse) (x : Z) : coarse :=
    mkCoarse (fr s) (forced s) (fading s) (limit s) (size s) (sum_features s) (count_points s) (avail s) (last s) x (total s).
  Definition with_total (s : coarse) (x : Z) : coarse :=
    mkCoarse (fr s) (forced s) (fading s) (limit s) (size s) (sum_features s) (count_points s) (avail s) (last s) (full s) x.
  Definition get (s : coarse) (i : Z) : res node := rd (nodes O (fr s)) i.
  Definition change (s : coarse) (i : Z) (g : node -> res node) : res coarse :=
    do f <- with_node O (fr s) i g; Ok (with_fr s f).
  Definition set_root (s : coarse) (tree_id i : Z) : res coarse :=
    do rs <- wr (roots O (fr s)) tree_id i; Ok (with_fr s (mkForest O (nodes O (fr s)) rs (drawn O (fr s)))).
  Definition uniform (s : coarse) : num O * coarse := let (u, f) := uniform O rnd (fr s) in (u, with_fr s f).

  (** l.45-57. *)
  Definition blank_node : node :=
    mkNode O (-1) (Some (n_ 0)) (repeat (Some (n_ 0)) (Z.to_nat feature_count)) (repeat (Some (n_ 0)) (Z.to_nat feature_count)) (-1) (-1) (-1) (n_ (-1))
      (repeat 0 (Z.to_nat label_count)).
  Definition reset_node (s : coarse) (i : Z) : res coarse :=
    do s <- change s i (fun _ => Ok blank_node);
    do fo <- wr (forced s) i 0;
    do fa <- wr (fading s) i (n_ 0);
    Ok (with_fading (with_forced s fo) fa).

  (** l.2872-2892: the size limit of a tree. *)
  Definition first_limit : Z :=
    if manage =? ROBUR_MANAGEMENT then
      let l := if 0 <? c_size_limit O c then c_size_limit O c else Z.quot node_count tree_count in
      if Z.rem l 2 =? 0 then l - 1 else l
    else if (manage =? COBBLE_MANAGEMENT) || (manage =? OPTIMISTIC_COBBLE_MANAGEMENT) then c_size_limit O c
    else node_count.
  (** l.2836-2894. [zeroed]: the object has static storage, so that what the constructor does not initialise is zero. [l0] is
      the value that other forests of the same type left in the static variable. *)
  Definition forest_init (zeroed : bool) (l0 : Z) : coarse :=
    mkCoarse (mkForest O (repeat blank_node (Z.to_nat node_count)) (repeat (-1) (Z.to_nat tree_count)) 0)
      (repeat 0 (Z.to_nat node_count)) (repeat (n_ 0) (Z.to_nat node_count))
      (repeat first_limit (Z.to_nat tree_count)) (repeat (if zeroed then Some 0 else None) (Z.to_nat tree_count))
      (repeat (if zeroed then Some (n_ 0) else None) (Z.to_nat feature_count)) (n_ 0) node_count l0 0 0.

  (** l.280-292. *)
  Definition available_node (s : coarse) : res (Z * coarse) :=
    if avail s =? 0 then Ok (-1, s)
    else
      do r <- findZ (Z.to_nat node_count) 0
        (fun i =>
           do k <- sint (i + last s);
           let node_id := Z.rem k node_count in
           do n <- get s node_id;
           Ok (if available O n then Some node_id else None));
      Ok (match r with Some i => (i, with_last s i) | None => (-1, s) end).

  (** l.2270-2322: the result, and the number of nodes of the subtree. *)
  Fixpoint depth_walk (steps : nat) (s : coarse) (node_id depth max_depth i : Z) (stack : list Z) : res (Z * Z) :=
    match steps with
    | Datatypes.O => NoFuel
    | S steps =>
        if (i <? node_count) && (0 <=? depth) then
          do n <- get s node_id;
          if is_leaf O n then depth_walk steps s (parent O n) (depth - 1) (if max_depth <? depth then depth else max_depth) (i + 1) stack
          else
            do v <- rd stack depth;
            if v =? -1 then do stack <- wr stack depth 0; depth_walk steps s (child_right O n) (depth + 1) max_depth i stack
            else if v =? 0 then do stack <- wr stack depth 1; depth_walk steps s (child_left O n) (depth + 1) max_depth i stack
            else if v =? 1 then do stack <- wr stack depth (-1); depth_walk steps s (parent O n) (depth - 1) max_depth (i + 1) stack
            else depth_walk steps s node_id depth max_depth i stack
        else Ok (max_depth + 1, i)
    end.
  Definition fuel : nat := S (3 * Z.to_nat node_count).
  Definition node_depth (s : coarse) (start : Z) : res (Z * Z) :=
    depth_walk fuel s start 0 0 0 (repeat (-1) (Z.to_nat max_stack_size)).

  (** l.2640-2668. *)
  Fixpoint climb (steps : nat) (s : coarse) (cur count : Z) : res Z :=
    match steps with
    | Datatypes.O => NoFuel
    | S steps =>
        do n <- get s cur;
        if parent O n =? -1 then Ok count else climb steps s (parent O n) (count + 1)
    end.
  Definition unravel (s : coarse) (node_id : Z) : res Z :=
    if node_count <=? node_id then Ok (-1) else climb fuel s node_id 0.

  (** l.218-226. *)
  Definition is_paused (s : coarse) (tree_id : Z) : res bool :=
    if (manage =? ROBUR_MANAGEMENT) || (manage =? PAUSING_PHOENIX_MANAGEMENT) then
      do z <- rdi (size s) tree_id;
      do l <- rd (limit s) tree_id;
      Ok (l <=? z)
    else Ok false.
  (** l.321-331. *)
  Definition pause (s : coarse) (node_id tree_id : Z) : res bool :=
    if (manage =? COBBLE_MANAGEMENT) || (manage =? OPTIMISTIC_COBBLE_MANAGEMENT) then
      do (remaining_depth, _) <- node_depth s node_id;
      do distance_to_root <- unravel s node_id;
      do l <- rd (limit s) tree_id;
      Ok (l <? remaining_depth + distance_to_root + 1)
    else is_paused s tree_id.

  (** [counters[label] += 1] and [fading_score += 1]. *)
  Definition add_label (s : coarse) (node_id label : Z) : res coarse :=
    change s node_id
      (fun n =>
         do k <- rd (counters O n) label;
         do k <- sint (k + 1);
         do cs <- wr (counters O n) label k;
         Ok (set_counters O n cs)).
  Definition add_fading (s : coarse) (node_id : Z) : res coarse :=
    do x <- rd (fading s) node_id;
    do xs <- wr (fading s) node_id (nadd O x (n_ 1));
    Ok (with_fading s xs).
  Definition add_leaf (s : coarse) (node_id label : Z) : res coarse :=
    do s <- add_label s node_id label; add_fading s node_id.

  (** l.367-368, 617-619: the counters of the new parent. *)
  Definition parent_counters (s : coarse) (n : node) (new_parent label : Z) : res coarse :=
    if extend_type =? EXTEND_ORIGINAL then change s new_parent (fun p => Ok (set_counters O p (map (Z.min 1) (counters O n))))
    else if extend_type =? EXTEND_GHOST then
      do s <- change s new_parent (fun p => Ok (set_counters O p (counters O n)));
      add_label s new_parent label
    else Ok s.
  (** l.334-401, 459-526, 584-651, 713-780 and [extend_node] (l.901-978). *)
  Definition split_above (s : coarse) (n : node) (node_id tree_id : Z) (features probs : list (num O)) (sum time : num O) (label : Z) : res coarse :=
    do (f, (dimension, (upper_value, split))) <- Unbound_Model.choose_split O rnd feature_count (fr s) n features probs sum;
    let s := with_fr s f in
    do (new_parent, s) <- available_node s;
    do s <- change s new_parent (fun p => Ok (set_split O p dimension split time));
    do (new_sibling, s) <- available_node s;
    let s := with_avail s (avail s - 2) in
    do s <- parent_counters s n new_parent label;
    do f <- insert_above O feature_count label_count lifetime (fr s) node_id tree_id features label dimension upper_value new_parent new_sibling;
    Ok (with_fr s f).

  (** l.318: [E]. *)
  Definition draw_time (s : coarse) (sum : num O) : num O * coarse :=
    if neq O sum (n_ 0) then (n_ (-1), s)
    else let (u, s) := uniform s in (rand_exponential O log_ u sum, s).

  (** [extend_block0] (l.301-426), [extend_block1] (l.553-680), [extend_block2] (l.428-551) and [extend_block3] (l.682-805). *)
  Fixpoint extend_block (steps : nat) (s : coarse) (node_id tree_id : Z) (features : list (num O)) (label : Z) : res coarse :=
    match steps with
    | Datatypes.O => NoFuel
    | S steps =>
        let descend (s : coarse) : res coarse :=
          do n <- get s node_id;
          if is_leaf O n then add_leaf s node_id label
          else
            do x <- rd features (split_dimension O n);
            do v <- match split_value O n with Some v => Ok v | None => Undef Uninitialised end;
            do s <-
              (if nle O x v then extend_block steps s (child_left O n) tree_id features label
               else if nlt O v x then extend_block steps s (child_right O n) tree_id features label
               else Ok s);
            if extend_type =? EXTEND_GHOST then add_label s node_id label else Ok s in
        do n <- get s node_id;
        do parent_tau <- parent_time O (fr s) n;
        do (probs, sum) <- distances O feature_count n features;
        let (e, s) := draw_time s sum in
        do paused <- pause s node_id tree_id;
        if nle O (n_ 0) e && nlt O (nadd O parent_tau e) (tau O n) && (2 <=? avail s) && negb paused then
          do s <- split_above s n node_id tree_id features probs sum (nadd O parent_tau e) label;
          if extend_type =? EXTEND_COUNTER_NO_UPDATE then descend s else Ok s
        else if (extend_type =? EXTEND_ORIGINAL) || nlt O e (n_ 0) || nlt O (tau O n) (nadd O parent_tau e) then
          do s <- change s node_id (fun n => update_box O feature_count n features);
          descend s
        else if extend_type =? EXTEND_GHOST then add_leaf s node_id label
        else if extend_type =? EXTEND_COUNTER_NO_UPDATE then descend s
        else Ok s
    end.

  (** The walk around a subtree shared by [count_sides] (l.1235), [adjust_counters] (l.1439), [count_dead_supply] (l.1551), [count_data_point_node] (l.1617),
      [find_barycenter] (l.1679), [tree_trim] (l.1757) and [tree_fade_counts] (l.1840). It stops after the node [start] (if any) or above the root. The first component of the
      result is [depth] at the end; it is [max_stack_size] or more when the function returned early. *)
  Fixpoint walk {A : Type} (visit : coarse -> Z -> A -> res (coarse * A)) (start : option Z) (steps : nat) (s : coarse) (node_id depth i : Z) (stack : list Z) (acc : A)
      : res (Z * (coarse * A)) :=
    match steps with
    | Datatypes.O => NoFuel
    | S steps =>
        if (i <? node_count) && (0 <=? node_id) then
          do n <- get s node_id;
          let stops := match start with Some b => node_id =? b | None => false end in
          if is_leaf O n then
            do stack <- wr stack depth (-1);
            do (s, acc) <- visit s node_id acc;
            if stops then Ok (depth - 1, (s, acc))
            else if max_stack_size <=? depth - 1 then Ok (depth - 1, (s, acc))
            else walk visit start steps s (parent O n) (depth - 1) (i + 1) stack acc
          else
            do v <- rd stack depth;
            if v =? -1 then
              do stack <- wr stack depth 0;
              if max_stack_size <=? depth + 1 then Ok (depth + 1, (s, acc)) else walk visit start steps s (child_right O n) (depth + 1) i stack acc
            else if v =? 0 then
              do stack <- wr stack depth 1;
              if max_stack_size <=? depth + 1 then Ok (depth + 1, (s, acc)) else walk visit start steps s (child_left O n) (depth + 1) i stack acc
            else if v =? 1 then
              do stack <- wr stack depth (-1);
              if stops then Ok (depth - 1, (s, acc)) else walk visit start steps s (parent O n) (depth - 1) (i + 1) stack acc
            else walk visit start steps s node_id depth i stack acc
        else Ok (depth, (s, acc))
    end.
  Definition walk_from {A : Type} (visit : coarse -> Z -> A -> res (coarse * A)) (start : option Z) (s : coarse) (node_id : Z) (acc : A) : res (Z * (coarse * A)) :=
    walk visit start fuel s node_id 0 0 (repeat (-1) (Z.to_nat max_stack_size)) acc.

  (** l.1272-1275, 1593-1595: [int] sum of the counters. *)
  Definition sum_counters (n : node) : res Z :=
    forZ (Z.to_nat label_count) 0 (fun i count => do k <- rd (counters O n) i; sint (count + k)) 0.
  (** l.1235-1307: [count_left] and [count_right]. *)
  Definition side_visit (dimension : Z) (split : num O) (s : coarse) (node_id : Z) (acc : Z * Z) : res (coarse * (Z * Z)) :=
    let (cl, cr) := acc in
    do n <- get s node_id;
    do count <- sum_counters n;
    do lower <- rdi (bound_lower O n) dimension;
    do upper <- rdi (bound_upper O n) dimension;
    if nlt O lower split && nlt O split upper then
      let percent := ndiv O (nsub O split lower) (nsub O upper lower) in
      do a <- n2int O (nmul O (n_ count) percent);
      do b <- n2int O (nmul O (n_ count) (nsub O (n_ 1) percent));
      let err := count - a - b in
      let (on_left, s) := if err =? 0 then (false, s) else let (u, s) := uniform s in (nlt O u half, s) in
      let a := if on_left then a + err else a in
      let b := if negb (err =? 0) && negb on_left then b + err else b in
      do cl <- sint (cl + a); do cr <- sint (cr + b); Ok (s, (cl, cr))
    else if nle O split lower then do cl <- sint (cl + count); Ok (s, (cl, cr))
    else if nle O upper split then do cr <- sint (cr + count); Ok (s, (cl, cr))
    else Ok (s, (cl, cr)).
  Definition count_sides (s : coarse) (start dimension : Z) (split : num O) : res (coarse * (Z * Z)) :=
    do (_, r) <- walk_from (side_visit dimension split) (Some start) s start (0, 0); Ok r.

  (** l.2347-2416: the forest and the result. *)
  Fixpoint reset_walk (root_id : Z) (steps : nat) (s : coarse) (node_id depth i : Z) (stack : list Z) : res (coarse * bool) :=
    match steps with
    | Datatypes.O => NoFuel
    | S steps =>
        if (i <? node_count) && (0 <=? node_id) then
          do n <- get s node_id;
          if is_leaf O n then
            let s := with_avail s (avail s + 1) in
            do s <- reset_node s node_id;
            if node_id =? root_id then Ok (s, depth =? -1)
            else if max_stack_size <=? depth - 1 then Ok (s, false)
            else reset_walk root_id steps s (parent O n) (depth - 1) (i + 1) stack
          else
            do v <- rd stack depth;
            if v =? -1 then
              do stack <- wr stack depth 0;
              if max_stack_size <=? depth + 1 then Ok (s, false) else reset_walk root_id steps s (child_right O n) (depth + 1) i stack
            else if v =? 0 then
              do stack <- wr stack depth 1;
              if max_stack_size <=? depth + 1 then Ok (s, false) else reset_walk root_id steps s (child_left O n) (depth + 1) i stack
            else if v =? 1 then
              let s := with_avail s (avail s + 1) in
              do s <- reset_node s node_id;
              if node_id =? root_id then Ok (s, depth =? -1)
              else
                do stack <- wr stack depth (-1);
                reset_walk root_id steps s (parent O n) (depth - 1) (i + 1) stack
            else reset_walk root_id steps s node_id depth i stack
        else Ok (s, depth =? -1)
    end.
  Definition node_reset (s : coarse) (start : Z) : res (coarse * bool) :=
    reset_walk start fuel s start 0 0 (repeat (-1) (Z.to_nat max_stack_size)).

  (** l.1439-1505: the counters moved out of the subtree. The message of l.1491 is not modelled. *)
  Definition take_visit (dimension : Z) (split : num O) (discharge_left : bool) (s : coarse) (node_id : Z) (to_remove : list Z) : res (coarse * list Z) :=
    do n <- get s node_id;
    do lower <- rdi (bound_lower O n) dimension;
    do upper <- rdi (bound_upper O n) dimension;
    let max_value := nsub O upper lower in
    let p := ndiv O (nsub O split lower) max_value in
    let p := if nlt O (n_ 0) p then p else n_ 0 in
    let p := if nlt O p (n_ 1) then p else n_ 1 in
    let percentage := if discharge_left then p else nsub O (n_ 1) p in
    do (cs, to_remove) <- forZ (Z.to_nat label_count) 0
      (fun i '(cs, to_remove) =>
         do k <- rd cs i;
         do counter_out <- round O half (nmul O (n_ k) percentage);
         do counter_in <- round O half (nmul O (n_ k) (nsub O (n_ 1) percentage));
         do r <- rd to_remove i;
         do r <- sint (r + counter_out);
         do to_remove <- wr to_remove i r;
         do cs <- wr cs i counter_in;
         Ok (cs, to_remove)) (counters O n, to_remove);
    do s <- change s node_id (fun n => Ok (set_counters O n cs));
    Ok (s, to_remove).
  Definition adjust_counters (s : coarse) (start dimension : Z) (split : num O) (discharge_left : bool) : res (coarse * list Z) :=
    do (_, r) <- walk_from (take_visit dimension split discharge_left) (Some start) s start (repeat 0 (Z.to_nat label_count)); Ok r.

  (** l.1325-1336, 1412-1423. *)
  Definition clip (dimension : Z) (split : num O) (subtree_on_left : bool) (n : node) : res node :=
    let cut v := if subtree_on_left then (if nlt O split v then split else v) else (if nlt O v split then split else v) in
    do upper <- rdi (bound_upper O n) dimension;
    do us <- wr (bound_upper O n) dimension (Some (cut upper));
    do lower <- rdi (bound_lower O n) dimension;
    do ls <- wr (bound_lower O n) dimension (Some (cut lower));
    Ok (set_box O n ls us).
  Definition flat (n : node) (dimension : Z) : res bool :=
    do upper <- rdi (bound_upper O n) dimension;
    do lower <- rdi (bound_lower O n) dimension;
    Ok (neq O (nsub O upper lower) (n_ 0)).
  (** l.1309-1437. *)
  Fixpoint boxes_walk (start dimension : Z) (split : num O) (subtree_on_left : bool) (tree_id : Z) (steps : nat) (s : coarse) (node_id depth i : Z) (stack : list Z) : res coarse :=
    match steps with
    | Datatypes.O => NoFuel
    | S steps =>
        let go := boxes_walk start dimension split subtree_on_left tree_id steps in
        if (i <? node_count) && (0 <=? node_id) then
          do n <- get s node_id;
          if is_leaf O n then
            do stack <- wr stack depth (-1);
            do s <- change s node_id (clip dimension split subtree_on_left);
            if node_id =? start then Ok s
            else if max_stack_size <=? depth - 1 then Ok s
            else go s (parent O n) (depth - 1) (i + 1) stack
          else
            do v <- rd stack depth;
            if v =? -1 then
              do s <- change s node_id (clip dimension split subtree_on_left);
              do n <- get s node_id;
              do zero <- flat n dimension;
              if (zero : bool) then
                do (s, _) <- node_reset s (child_right O n);
                do (s, _) <- node_reset s (child_left O n);
                go s (parent O n) (depth - 1) i stack
              else
                do stack <- wr stack depth 0;
                if max_stack_size <=? depth + 1 then Ok s else go s (child_right O n) (depth + 1) i stack
            else if v =? 0 then
              do stack <- wr stack depth 1;
              if max_stack_size <=? depth + 1 then Ok s else go s (child_left O n) (depth + 1) i stack
            else if v =? 1 then
              do stack <- wr stack depth (-1);
              do l <- get s (child_left O n);
              do left_zeroed <- flat l dimension;
              do r <- get s (child_right O n);
              do right_zeroed <- flat r dimension;
              let '(replacer_id, other_id) :=
                if (left_zeroed : bool) then (child_right O n, child_left O n)
                else if (right_zeroed : bool) then (child_left O n, child_right O n) else (-1, -1) in
              if replacer_id =? -1 then
                if node_id =? start then Ok s else go s (parent O n) (depth - 1) (i + 1) stack
              else if parent O n <? 0 then
                do s <- set_root s tree_id replacer_id;
                do s <- reset_node s other_id;
                do s <- reset_node s node_id;
                do s <- change s replacer_id (fun r => Ok (set_parent O r (-1)));
                Ok (with_avail s (avail s + 2))
              else
                do s <- change s (parent O n)
                  (fun p => Ok (if child_left O p =? node_id then set_children O p replacer_id (child_right O p)
                                else set_children O p (child_left O p) replacer_id));
                do s <- change s replacer_id (fun r => Ok (set_parent O r (parent O n)));
                do s <- reset_node s other_id;
                do s <- reset_node s node_id;
                let s := with_avail s (avail s + 2) in
                if node_id =? start then Ok s else go s (parent O n) (depth - 1) (i + 1) stack
            else go s node_id depth i stack
        else Ok s
    end.
  Definition adjust_boxes (s : coarse) (start dimension : Z) (split : num O) (subtree_on_left : bool) (tree_id : Z) : res coarse :=
    boxes_walk start dimension split subtree_on_left tree_id fuel s start 0 0 (repeat (-1) (Z.to_nat max_stack_size)).

  (** l.1013-1014, 1513-1516: [Utils::min] and [Utils::max]. *)
  Definition hull_box (n : node) (features : list (num O)) : res (list (option (num O)) * list (option (num O))) :=
    forZ (Z.to_nat feature_count) 0
      (fun i '(l, u) =>
         do x <- rd features i;
         do lo <- rdi (bound_lower O n) i;
         do hi <- rdi (bound_upper O n) i;
         Ok (l ++ [Some (if nlt O lo x then lo else x)], u ++ [Some (if nlt O x hi then hi else x)])) ([], []).
  (** l.1506-1531. *)
  Fixpoint pass_data_point_down (steps : nat) (s : coarse) (node_id : Z) (features : list (num O)) (label : Z) : res coarse :=
    match steps with
    | Datatypes.O => NoFuel
    | S steps =>
        do s <- change s node_id (fun n => do (l, u) <- hull_box n features; Ok (set_box O n l u));
        do n <- get s node_id;
        if is_leaf O n then add_leaf s node_id label
        else
          do x <- rd features (split_dimension O n);
          do v <- match split_value O n with Some v => Ok v | None => Undef Uninitialised end;
          pass_data_point_down steps s (if nlt O v x then child_right O n else child_left O n) features label
    end.

  (** l.1057-1076: the new [forced_extend] of the node and of the sibling. *)
  Definition share_forced (fe count_left count_right : Z) (old : Z) : res (Z * Z) :=
    if c_fe_dist O c =? FE_DISTRIBUTION_ZERO then Ok (0, 0)
    else if c_fe_dist O c =? FE_DISTRIBUTION_SPLIT then
      do b <- n2int O (nmul O half (n_ fe)); do a <- n2int O (nmul O (n_ fe) half); Ok (a, b)
    else if c_fe_dist O c =? FE_DISTRIBUTION_PROPORTIONAL then
      do k <- sint (count_left + count_right);
      let ratio := ndiv O (n_ count_left) (n_ k) in
      do b <- n2int O (nmul O (nsub O (n_ 1) ratio) (n_ fe)); do a <- n2int O (nmul O (n_ fe) ratio); Ok (a, b)
    else if c_fe_dist O c =? FE_DISTRIBUTION_DECREMENT then do a <- sint (fe - 1); Ok (a, 0)
    else Ok (fe, old).
  (** l.1000-1093, 1138-1231: puts a split of the box of the node above it, moves part of the counters to the new sibling and sends the point down.
      [time] is the time of the new parent. *)
  Definition split_at (s : coarse) (node_id tree_id dimension : Z) (split time : num O) (features : list (num O)) (label : Z) : res coarse :=
    do (new_parent, s) <- available_node s;
    do s <- change s new_parent (fun p => Ok (set_tau O p time));
    do (new_sibling, s) <- available_node s;
    do s <- change s new_sibling (fun p => Ok (set_tau O p lifetime));
    let s := with_avail s (avail s - 2) in
    do n <- get s node_id;
    do (l, u) <- hull_box n features;
    do s <- change s new_parent (fun p => Ok (set_box O (set_split O p dimension split (tau O p)) l u));
    do s <- change s new_sibling (fun p => Ok (set_counters O (set_box O p (bound_lower O n) (bound_upper O n)) (repeat 0 (Z.to_nat label_count))));
    do root <- rd (roots O (fr s)) tree_id;
    do s <-
      (if (parent O n =? -1) && (node_id =? root) then set_root s tree_id new_parent
       else change s (parent O n)
              (fun p => Ok (if child_left O p =? node_id then set_children O p new_parent (child_right O p)
                            else set_children O p (child_left O p) new_parent)));
    do (s, (count_left, count_right)) <- count_sides s node_id dimension split;
    let subtree_on_left := count_right <? count_left in
    do s <- change s new_parent (fun p => Ok (if subtree_on_left then set_children O p node_id new_sibling else set_children O p new_sibling node_id));
    do s <- change s node_id
      (fun n => if subtree_on_left then do us <- wr (bound_upper O n) dimension (Some split); Ok (set_box O n (bound_lower O n) us)
                else do ls <- wr (bound_lower O n) dimension (Some split); Ok (set_box O n ls (bound_upper O n)));
    do s <- change s new_sibling
      (fun n => if subtree_on_left then do ls <- wr (bound_lower O n) dimension (Some split); Ok (set_box O n ls (bound_upper O n))
                else do us <- wr (bound_upper O n) dimension (Some split); Ok (set_box O n (bound_lower O n) us));
    do n <- get s node_id;
    do s <- change s new_parent (fun p => Ok (set_parent O p (parent O n)));
    do s <- change s node_id (fun n => Ok (set_parent O n new_parent));
    do s <- change s new_sibling (fun n => Ok (set_parent O n new_parent));
    do fe <- rd (forced s) node_id;
    do old <- rd (forced s) new_sibling;
    do (a, b) <- share_forced fe count_left count_right old;
    do fo <- wr (forced s) new_sibling b;
    do fo <- wr fo node_id a;
    do fo <- wr fo new_parent 0;
    let s := with_forced s fo in
    do (s, to_remove) <- adjust_counters s node_id dimension split (negb subtree_on_left);
    do s <- change s new_sibling
      (fun n =>
         do cs <- forZ (Z.to_nat label_count) 0 (fun i cs => do k <- rd cs i; do r <- rd to_remove i; do k <- sint (k + r); wr cs i k) (counters O n);
         Ok (set_counters O n cs));
    do s <- adjust_boxes s node_id dimension split subtree_on_left tree_id;
    do x <- rd features dimension;
    do p <- get s new_parent;
    pass_data_point_down fuel s (if nlt O split x then child_right O p else child_left O p) features label.

  (** l.980-1094. *)
  Definition split_node (s : coarse) (node_id tree_id : Z) (features : list (num O)) (label : Z) (time : num O) : res coarse :=
    do n <- get s node_id;
    do (probs, sum) <- forZ (Z.to_nat feature_count) 0
      (fun i '(probs, sum) =>
         do hi <- rdi (bound_upper O n) i;
         do lo <- rdi (bound_lower O n) i;
         Ok (probs ++ [nsub O hi lo], nadd O sum (nsub O hi lo))) ([], n_ 0);
    do probs <- turn_array_into_probability O probs feature_count sum;
    let (u, s) := uniform s in
    do dimension <- pick_from_distribution O u probs feature_count;
    do lower_value <- rdi (bound_lower O n) dimension;
    do upper_value <- rdi (bound_upper O n) dimension;
    let (u, s) := uniform s in
    split_at s node_id tree_id dimension (nadd O (nmul O u (nsub O upper_value lower_value)) lower_value) time features label.

  (** l.1679-1746: the barycenter; when the walk fails the sums are not divided. *)
  Definition center_visit (s : coarse) (node_id : Z) (acc : list (num O) * list (num O)) : res (coarse * (list (num O) * list (num O))) :=
    let (avg, count) := acc in
    do n <- get s node_id;
    do k <- forZ (Z.to_nat label_count) 0 (fun i k => do x <- rd (counters O n) i; Ok (nadd O k (n_ x))) (n_ 0);
    do acc <- forZ (Z.to_nat feature_count) 0
      (fun i '(avg, count) =>
         do hi <- rdi (bound_upper O n) i;
         do lo <- rdi (bound_lower O n) i;
         let middle := nmul O (nadd O hi lo) half in
         do a <- rd avg i;
         do avg <- wr avg i (nadd O a (nmul O middle k));
         do t <- rd count i;
         do count <- wr count i (nadd O t k);
         Ok (avg, count)) (avg, count);
    Ok (s, acc).
  Definition find_barycenter (s : coarse) (start : Z) : res (list (num O)) :=
    let zeros := repeat (n_ 0) (Z.to_nat feature_count) in
    do (depth, (_, (avg, count))) <- walk_from center_visit (Some start) s start (zeros, zeros);
    if depth =? -1 then
      forZ (Z.to_nat feature_count) 0 (fun i avg => do a <- rd avg i; do k <- rd count i; wr avg i (ndiv O a k)) avg
    else Ok avg.

  (** l.1095-1233. *)
  Definition split_barycenter (s : coarse) (node_id tree_id : Z) (features : list (num O)) (label : Z) (parent_tau : num O) : res (coarse * bool) :=
    do n <- get s node_id;
    if c_helper O c =? SPLIT_HELPER_NONE then Ok (s, false)
    else
      do barycenter <-
        (if c_helper O c =? SPLIT_HELPER_WEIGHTED then do root <- rd (roots O (fr s)) tree_id; find_barycenter s root
         else if c_helper O c =? SPLIT_HELPER_AVG then
           forZ (Z.to_nat feature_count) 0 (fun i b => do x <- rdi (sum_features s) i; Ok (b ++ [ndiv O x (count_points s)])) []
         else Undef Uninitialised);
      do (probs, sum) <- forZ (Z.to_nat feature_count) 0
        (fun i '(probs, sum) =>
           do b <- rd barycenter i;
           do lo <- rdi (bound_lower O n) i;
           do hi <- rdi (bound_upper O n) i;
           do x <- rd features i;
           if nlt O lo b && nlt O b hi then
             let d := nsub O b x in
             let d := if nlt O d (n_ 0) then nmul O (n_ (-1)) d else d in
             Ok (probs ++ [d], nadd O sum d)
           else Ok (probs ++ [n_ 0], sum)) ([], n_ 0);
      let (e, s) := draw_time s sum in
      if neq O sum (n_ 0) then Ok (s, false)
      else
        do probs <- turn_array_into_probability O probs feature_count sum;
        let (u, s) := uniform s in
        do dimension <- pick_from_distribution O u probs feature_count;
        do b <- rd barycenter dimension;
        do x <- rd features dimension;
        let lower_value := if nlt O b x then b else x in
        let upper_value := if nlt O x b then b else x in
        let (u, s) := uniform s in
        do s <- split_at s node_id tree_id dimension (nadd O (nmul O u (nsub O upper_value lower_value)) lower_value)
          (nadd O parent_tau (nmul O (nsub O (tau O n) parent_tau) u)) features label;
        Ok (s, true).

  (** l.860-869. *)
  Definition stretch_box (n : node) (features : list (num O)) : res node :=
    do (l, u) <- forZ (Z.to_nat feature_count) 0
      (fun i '(l, u) =>
         do x <- rd features i;
         do lo <- rdi l i;
         do l <- wr l i (Some (if nlt O x lo then nsub O lo (nmul O (nsub O lo x) (c_fe_param O c)) else lo));
         do hi <- rdi u i;
         do u <- wr u i (Some (if nlt O hi x then nadd O hi (nmul O (nsub O x hi) (c_fe_param O c)) else hi));
         Ok (l, u)) (bound_lower O n, bound_upper O n);
    Ok (set_box O n l u).
  Definition add_forced (s : coarse) (node_id : Z) : res coarse :=
    do k <- rd (forced s) node_id;
    do k <- sint (k + 1);
    do ks <- wr (forced s) node_id k;
    Ok (with_forced s ks).
  (** l.807-900. *)
  Fixpoint extend_block4 (steps : nat) (s : coarse) (node_id tree_id : Z) (features : list (num O)) (label forced_extend_sum : Z) : res coarse :=
    match steps with
    | Datatypes.O => NoFuel
    | S steps =>
        do n <- get s node_id;
        do parent_tau <- parent_time O (fr s) n;
        do (probs, sum) <- distances O feature_count n features;
        let (e, s) := draw_time s sum in
        do paused <- pause s node_id tree_id;
        let splits := nle O (n_ 0) e && nlt O (nadd O parent_tau e) (tau O n) in
        if splits && (2 <=? avail s) && negb paused then
          do fe <- rd (forced s) node_id;
          let (split_instead, s) :=
            if 0 <? forced_extend_sum then let (u, s) := uniform s in (nlt O u (ndiv O (n_ fe) (n_ forced_extend_sum)), s) else (false, s) in
          let trigger := c_fe_trigger O c in
          if ((trigger =? SPLIT_TRIGGER_POSITIVE) && (0 <? fe)) ||
             (((trigger =? SPLIT_TRIGGER_TOTAL) || (trigger =? SPLIT_TRIGGER_SFE)) && split_instead)
          then split_node s node_id tree_id features label (nadd O parent_tau e)
          else split_above s n node_id tree_id features probs sum (nadd O parent_tau e) label
        else
          do s <- change s node_id (fun n => stretch_box n features);
          do s <- (if splits then add_forced s node_id else Ok s);
          do n <- get s node_id;
          if is_leaf O n then
            do (s, has_split) <-
              (if (20 <? full s) && nlt O e (n_ 0) && (2 <=? avail s) then split_barycenter s node_id tree_id features label parent_tau
               else Ok (s, false));
            if (has_split : bool) then Ok s else add_leaf s node_id label
          else
            do x <- rd features (split_dimension O n);
            do v <- match split_value O n with Some v => Ok v | None => Undef Uninitialised end;
            if nle O x v then extend_block4 steps s (child_left O n) tree_id features label forced_extend_sum
            else if nlt O v x then extend_block4 steps s (child_right O n) tree_id features label forced_extend_sum
            else Ok s
    end.

  (** l.2177-2188, with a value for each node on the way. *)
  Fixpoint follow {A : Type} (visit : Z -> A -> res A) (steps : nat) (s : coarse) (node_id : Z) (features : list (num O)) (acc : A) : res (Z * A) :=
    match steps with
    | Datatypes.O => NoFuel
    | S steps =>
        do n <- get s node_id;
        do acc <- visit node_id acc;
        if is_leaf O n then Ok (node_id, acc)
        else
          do x <- rd features (split_dimension O n);
          do v <- match split_value O n with Some v => Ok v | None => Undef Uninitialised end;
          follow visit steps s (if nlt O v x then child_right O n else child_left O n) features acc
    end.
  (** l.1532-1549. *)
  Definition count_fe_down (s : coarse) (start : Z) (features : list (num O)) : res Z :=
    do (_, k) <- follow (fun i k => do fe <- rd (forced s) i; sint (k + fe)) fuel s start features 0; Ok k.
  (** l.2173-2190. *)
  Definition get_leaf (s : coarse) (tree_id : Z) (features : list (num O)) : res Z :=
    do root <- rd (roots O (fr s)) tree_id;
    if root <? 0 then Ok (-1) else do (i, _) <- follow (fun _ k => Ok k) fuel s root features tt; Ok i.

  (** l.2019-2068. *)
  Definition train_tree (s : coarse) (features : list (num O)) (label tree_id : Z) : res (coarse * bool) :=
    do root_id <- rd (roots O (fr s)) tree_id;
    if root_id =? -1 then
      do (root_id, s) <- available_node s;
      if 0 <=? root_id then
        do s <- set_root s tree_id root_id;
        do s <- change s root_id (fun n => Ok (set_tau O (set_children O (set_parent O n (-1)) (-1) (-1)) (n_ 0)));
        let s := with_avail s (avail s - 1) in
        do f <- sample_block O feature_count lifetime (fr s) root_id features label;
        Ok (with_fr s f, true)
      else Ok (s, false)
    else
      do summy <-
        (if c_fe_trigger O c =? SPLIT_TRIGGER_TOTAL then Ok (to_int (total s))
         else if c_fe_trigger O c =? SPLIT_TRIGGER_SFE then count_fe_down s root_id features
         else Ok 0);
      if (extend_type =? EXTEND_ORIGINAL) || (extend_type =? EXTEND_PARTIAL_UPDATE) || (extend_type =? EXTEND_GHOST) || (extend_type =? EXTEND_COUNTER_NO_UPDATE) then
        do s <- extend_block (S (Z.to_nat node_count)) s root_id tree_id features label; Ok (s, true)
      else if (extend_type =? EXTEND_NONE) && (avail s <=? 2) then Ok (s, false)
      else if extend_type =? EXTEND_BARYCENTER then
        do s <- extend_block4 (S (Z.to_nat node_count)) s root_id tree_id features label summy; Ok (s, true)
      else Ok (s, true).

  (** l.1892-1922. *)
  Definition cut_block (s : coarse) (node_id tree_id : Z) : res coarse :=
    do n <- get s node_id;
    do p <- get s (parent O n);
    let sibling_id := if child_right O p =? node_id then child_left O p else child_right O p in
    if parent O p =? -1 then
      do s <- reset_node s (parent O n);
      let s := with_avail s (avail s + 1) in
      do (s, _) <- node_reset s node_id;
      do s <- set_root s tree_id sibling_id;
      change s sibling_id (fun b => Ok (set_parent O b (-1)))
    else
      do s <- change s (parent O p)
        (fun g => Ok (if child_right O g =? parent O n then set_children O g (child_left O g) sibling_id
                      else set_children O g sibling_id (child_right O g)));
      do s <- change s sibling_id (fun b => Ok (set_parent O b (parent O p)));
      let s := with_avail s (avail s + 1) in
      do s <- reset_node s (parent O n);
      do (s, _) <- node_reset s node_id;
      Ok s.

  (** l.1796-1824. *)
  Record trim_state : Type := mkTrim { leaf_count : num O; leaf_sum : num O; smallest : num O; smallest_id : Z }.
  Definition trim_visit (s : coarse) (node_id : Z) (t : trim_state) : res (coarse * trim_state) :=
    do n <- get s node_id;
    let k := nadd O (leaf_count t) (n_ 1) in
    let keep (s : coarse) (count : num O) : res (coarse * trim_state) :=
      let total := nadd O (leaf_sum t) count in
      let (better, s) :=
        if nlt O (smallest t) (n_ 0) || nlt O count (smallest t) then (true, s)
        else if neq O count (smallest t) then let (u, s) := uniform s in (nlt O u half, s)
        else (false, s) in
      Ok (s, if better then mkTrim k total count node_id else mkTrim k total (smallest t) (smallest_id t)) in
    if trim_type =? TRIM_COUNT then
      do count <- forZ (Z.to_nat label_count) 0 (fun i count => do x <- rd (counters O n) i; Ok (nadd O count (n_ x))) (n_ 0);
      keep s count
    else if trim_type =? TRIM_FADING then
      do x <- rd (fading s) node_id;
      keep s x
    else if trim_type =? TRIM_RANDOM then
      let (r, s) := uniform s in
      Ok (s, if nlt O r (ndiv O (n_ 1) k) then mkTrim k (leaf_sum t) (smallest t) node_id else mkTrim k (leaf_sum t) (smallest t) (smallest_id t))
    else Ok (s, mkTrim k (leaf_sum t) (smallest t) (smallest_id t)).
  (** l.1757-1834. *)
  Definition pick_trim (s : coarse) (tree_id : Z) : res (coarse * Z) :=
    do root <- rd (roots O (fr s)) tree_id;
    do (depth, (s, t)) <- walk_from trim_visit None s root (mkTrim (n_ 0) (n_ 0) (n_ (-1)) 0);
    Ok (s, if max_stack_size <=? depth then -1
           else if negb (depth =? -1) then -2
           else if nlt O (n_ 0) (leaf_sum t) && nlt O (c_max_trim O c) (ndiv O (smallest t) (leaf_sum t)) then -3
           else smallest_id t).
  (** l.1747-1755. *)
  Definition tree_trim (s : coarse) : res coarse :=
    forZ (Z.to_nat tree_count) 0
      (fun i s =>
         do (s, id) <- pick_trim s i;
         do root <- rd (roots O (fr s)) i;
         if negb (root =? id) && (0 <=? id) && (id <? node_count) then cut_block s id i else Ok s) s.

  (** l.1835-1890. *)
  Definition fade_visit (s : coarse) (node_id : Z) (a : unit) : res (coarse * unit) :=
    do x <- rd (fading s) node_id;
    do xs <- wr (fading s) node_id (nmul O x (ndiv O (n_ 995) (n_ 1000)));
    Ok (with_fading s xs, a).
  Definition tree_fade_counts (s : coarse) : res coarse :=
    forZ (Z.to_nat tree_count) 0
      (fun i s =>
         do root <- rd (roots O (fr s)) i;
         do (_, (s, _)) <- walk_from fade_visit None s root tt;
         Ok s) s.

  (** l.2196-2210. *)
  Fixpoint recount_up (steps : nat) (s : coarse) (node_id label : Z) : res coarse :=
    match steps with
    | Datatypes.O => NoFuel
    | S steps =>
        if (0 <? node_id) && (node_id <? node_count) then
          do n <- get s node_id;
          do l <- get s (child_left O n);
          do cl <- rd (counters O l) label;
          do r <- get s (child_right O n);
          do cr <- rd (counters O r) label;
          do s <- change s node_id (fun n => do cs <- wr (counters O n) label (Z.min 1 cl + Z.min 1 cr); Ok (set_counters O n cs));
          recount_up steps s (parent O n) label
        else Ok s
    end.
  Definition update_branch (s : coarse) (tree_id : Z) (features : list (num O)) (label : Z) : res coarse :=
    do leaf <- get_leaf s tree_id features;
    do n <- get s leaf;
    recount_up fuel s (parent O n) label.

  (** l.2908-3045 (the code under [if(false && ...)], l.2980-3040, is left out). *)
  Definition train (s : coarse) (features : list (num O)) (label : Z) : res (coarse * bool) :=
    do (sums, _) <- forZ (Z.to_nat feature_count) 0
      (fun i '(sums, _) =>
         do a <- rdi (sum_features s) i;
         do x <- rd features i;
         Ok (sums ++ [Some (nadd O (nmul O a (c_fading O c)) x)], tt)) ([], tt);
    let s := with_sums s sums (nadd O (nmul O (count_points s) (c_fading O c)) (n_ 1)) in
    do s <- (if trim_type =? TRIM_FADING then tree_fade_counts s else Ok s);
    do s <- (if negb (trim_type =? TRIM_NONE) && (avail s <=? 1) && (total s mod 100 =? 0) then tree_trim s else Ok s);
    do (s, fully_trained) <- forZ (Z.to_nat tree_count) 0
      (fun i '(s, fully_trained) =>
         do (s, has_trained) <- train_tree s features label i;
         do s <- (if c_optimize O c then update_branch s i features label else Ok s);
         Ok (s, if negb has_trained then false else fully_trained)) (s, true);
    do s <- (if avail s <=? 1 then do k <- sint (full s + 1); Ok (with_full s k) else Ok s);
    Ok (with_total s (u32 (total s + 1)), fully_trained).

  (** l.2237-2243. *)
  Definition update_all (s : coarse) : res coarse :=
    do f <- forZ (Z.to_nat tree_count) 0
      (fun i f =>
         do root <- rd (roots O f) i;
         if root =? -1 then Ok f else update_posterior_count O label_count (S (Z.to_nat node_count)) f root) (fr s);
    Ok (with_fr s f).

  (** l.2124-2171; [parent_tau] (l.2118) stays 0. *)
  Fixpoint predict_from (steps : nat) (s : coarse) (node_id : Z) (features : list (num O)) (depth depth_limit : Z) (separated : num O) (means smoothed : list (num O))
      : res (list (num O)) :=
    match steps with
    | Datatypes.O => NoFuel
    | S steps =>
        if (0 <=? node_id) && (node_id <? node_count) then
          do n <- get s node_id;
          let delta_tau := nsub O (tau O n) (n_ 0) in
          do eta <- compute_eta O feature_count n features;
          let branching := nsub O (n_ 1) (exp_ (nmul O (nopp O delta_tau) eta)) in
          do smoothed <- smooth O exp_ label_count (c_discount O c) n eta delta_tau separated branching means smoothed;
          do means <- compute_posterior_mean O exp_ label_count (c_discount O c) (fr s) n means;
          let too_deep := (depth_limit <=? depth + 1) && (0 <=? depth_limit) in
          if too_deep || is_leaf O n then
            forZ (Z.to_nat label_count) 0
              (fun l means =>
                 do a <- rd smoothed l;
                 do m <- rd means l;
                 wr means l (nadd O a (nmul O (nmul O separated (nsub O (n_ 1) branching)) m))) means
          else
            let separated := nmul O separated (nsub O (n_ 1) branching) in
            do x <- rd features (split_dimension O n);
            do v <- match split_value O n with Some v => Ok v | None => Undef Uninitialised end;
            predict_from steps s (if nle O x v then child_left O n else child_right O n) features (depth + 1) depth_limit separated means smoothed
        else Ok means
    end.
  (** l.2108-2123. *)
  Definition predict_tree (s : coarse) (features : list (num O)) (tree_id depth_limit : Z) : res (list (num O)) :=
    do root <- rd (roots O (fr s)) tree_id;
    let means := repeat (c_base O c) (Z.to_nat label_count) in
    if root =? -1 then Ok means
    else predict_from (S (S (Z.to_nat node_count))) s root features 0 depth_limit (n_ 1) means (repeat (n_ 0) (Z.to_nat label_count)).

  (** l.3276-3290; [used] is the number of trees asked. *)
  Definition forest_means (s : coarse) (features : list (num O)) (used : Z) : res (list (num O)) :=
    do sums <- forZ (Z.to_nat used) 0
      (fun i sums =>
         do p <- predict_tree s features i (-1);
         forZ (Z.to_nat label_count) 0 (fun k sums => do a <- rd sums k; do m <- rd p k; wr sums k (nadd O a m)) sums)
      (repeat (n_ 0) (Z.to_nat label_count));
    Ok (map (fun a => ndiv O a (n_ used)) sums).
  (** l.3264-3294: the label, and the caller's array [scores]. *)
  Definition predict (s : coarse) (features : list (num O)) (scores : option (list (num O))) (tree_to_use : Z) : res (coarse * Z * option (list (num O))) :=
    let used := if tree_to_use <? 0 then tree_count else tree_to_use in
    do s <- (if negb (c_optimize O c) && negb (extend_type =? EXTEND_GHOST) then update_all s else Ok s);
    do means <- forest_means s features used;
    do best <- index_max (fun a b => nlt O b a) means label_count;
    Ok (s, best, scores).

  (** l.1617-1677. *)
  Definition point_visit (s : coarse) (node_id : Z) (sum : num O) : res (coarse * num O) :=
    do n <- get s node_id;
    do sum <- forZ (Z.to_nat label_count) 0 (fun i sum => do x <- rd (counters O n) i; Ok (nadd O sum (n_ x))) sum;
    Ok (s, sum).
  Definition count_data_point_tree (s : coarse) (tree_id : Z) : res Z :=
    do root <- rd (roots O (fr s)) tree_id;
    if root <? 0 then Ok 0
    else
      do (depth, (_, sum)) <- walk_from point_visit (Some root) s root (n_ 0);
      if depth =? -1 then n2int O sum else Ok (-1).
  (** l.1551-1615. *)
  Definition dead_visit (s : coarse) (node_id : Z) (dead : num O) : res (coarse * num O) :=
    do n <- get s node_id;
    do count <- sum_counters n;
    Ok (s, if count <? 50 then nadd O dead (n_ 1) else dead).
  Definition count_dead_supply_tree (s : coarse) (tree_id : Z) : res Z :=
    do root <- rd (roots O (fr s)) tree_id;
    if root <? 0 then Ok 0
    else
      do (depth, (_, dead)) <- walk_from dead_visit (Some root) s root (n_ 0);
      if depth =? -1 then n2int O dead else Ok (-1).

  (** l.3249-3258. *)
  Definition eval_scores (score : list (num O)) (label : Z) : res (num O) :=
    do idx_max <- index_max (fun a b => nlt O b a) score label_count;
    do idx_max <-
      (if idx_max =? label then
         forZ (Z.to_nat label_count - 1) 1
           (fun i idx_max =>
              if i =? label then Ok idx_max
              else do x <- rd score i; do y <- rd score idx_max; Ok (if nlt O y x then i else idx_max)) 0
       else Ok idx_max);
    do a <- rd score label;
    do b <- rd score idx_max;
    Ok (nsub O a b).
End Coarse.
