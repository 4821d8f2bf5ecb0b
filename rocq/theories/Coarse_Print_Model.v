(** * Model of the self-check and the printing of src/mondrian_coarse.hpp

    Line numbers are those of mondrian_coarse.hpp. These functions are left out of [Coarse_Model], which describes a forest built without
    [DEBUG] and with [print_nodes] off. A printed line is described by its leading columns and by the node it prints; reading the boxes and
    the two extra fields of the node ([forced_extend] and the box bounds) for printing is not checked. What is printed when a self-check fails is left out. *)
From Coq Require Import ZArith List Bool.
From Verif Require Import CppBase NumOps Utils_Model Mondrian_Model Coarse_Model.
Import ListNotations.
Local Open Scope Z_scope.

Section Print.
  Variable O : ops.
  Variable exp_ log_ : num O -> num O.
  Variable rnd : nat -> num O.
  Variable c : config O.
  Local Notation n_ := (nofZ O).
  Local Notation node := (node O).
  Local Notation coarse := (coarse O).
  Local Notation get := (get O).
  Local Notation tree_count := (c_trees O c).
  Local Notation label_count := (c_labels O c).
  Local Notation node_count := (c_nodes O c).

  (** l.2768-2774 and l.2788-2794: is [node_id] a child of its parent? A node without a parent passes. *)
  Definition child_of_parent (s : coarse) (node_id : Z) (n : node) : res bool :=
    if 0 <=? parent O n then
      do p <- get s (parent O n);
      Ok (negb (negb (child_left O p =? node_id) && negb (child_right O p =? node_id)))
    else Ok true.
  (** l.2760-2824. *)
  Fixpoint check_walk (steps : nat) (s : coarse) (node_id depth i : Z) (stack : list Z) (node_visited : list bool) : res bool :=
    match steps with
    | Datatypes.O => NoFuel
    | S steps =>
        if (i <? node_count) && (0 <=? node_id) then
          do n <- get s node_id;
          if is_leaf O n then
            do v <- rd node_visited node_id;
            if v then Ok false
            else
              do b <- child_of_parent s node_id n;
              if negb b then Ok false else check_walk steps s (parent O n) (depth - 1) (i + 1) stack node_visited
          else
            do w <- rd stack depth;
            if w =? -1 then
              do stack <- wr stack depth 0;
              do v <- rd node_visited node_id;
              if v then Ok false
              else
                do b <- child_of_parent s node_id n;
                if negb b then Ok false
                else
                  do r <- get s (child_right O n);
                  if negb (parent O r =? node_id) then Ok false
                  else
                    do l <- get s (child_left O n);
                    if negb (parent O l =? node_id) then Ok false
                    else
                      do node_visited <- wr node_visited node_id true;
                      check_walk steps s (child_right O n) (depth + 1) i stack node_visited
            else if w =? 0 then do stack <- wr stack depth 1; check_walk steps s (child_left O n) (depth + 1) i stack node_visited
            else if w =? 1 then do stack <- wr stack depth (-1); check_walk steps s (parent O n) (depth - 1) (i + 1) stack node_visited
            else Ok false
        else Ok true
    end.
  (** l.2741-2827. *)
  Definition tree_checker (s : coarse) (tree_id : Z) : res bool :=
    do root <- rd (roots O (fr O s)) tree_id;
    check_walk (fuel O c) s root 0 0 (repeat (-1) (Z.to_nat max_stack_size)) (repeat false (Z.to_nat node_count)).
  (** l.2908-3045 with [DEBUG] (the check is l.3035-3042): [exit(-1)] if a tree fails the check. *)
  Definition train_debug (s : coarse) (features : list (num O)) (label : Z) : res (coarse * bool) :=
    do (s, b) <- train O log_ rnd c s features label;
    do _ <- forZ (Z.to_nat tree_count) 0 (fun i _ => do ok <- tree_checker s i; if negb ok then Abort else Ok tt) tt;
    Ok (s, b).

  (** l.3155-3166: a line that starts with "Narval". *)
  Record narval : Type := mkNarval { nv_total : Z; nv_tree : Z; nv_node : Z; nv_depth : Z; nv_leaf : Z; nv_contents : node }.
  (** l.3184-3219. *)
  Fixpoint print_walk (steps : nat) (s : coarse) (tree_id node_id depth i : Z) (stack : list Z) (out : list narval) : res (list narval) :=
    match steps with
    | Datatypes.O => NoFuel
    | S steps =>
        if (i <? node_count) && (0 <=? depth) then
          do n <- get s node_id;
          if is_leaf O n then print_walk steps s tree_id (parent O n) (depth - 1) (i + 1) stack (out ++ [mkNarval (total O s) tree_id node_id depth 1 n])
          else
            do w <- rd stack depth;
            if w =? -1 then
              do stack <- wr stack depth 0;
              print_walk steps s tree_id (child_right O n) (depth + 1) i stack (out ++ [mkNarval (total O s) tree_id node_id depth 0 n])
            else if w =? 0 then do stack <- wr stack depth 1; print_walk steps s tree_id (child_left O n) (depth + 1) i stack out
            else if w =? 1 then do stack <- wr stack depth (-1); print_walk steps s tree_id (parent O n) (depth - 1) (i + 1) stack out
            else print_walk steps s tree_id node_id depth i stack out
        else Ok out
    end.
  (** l.3168-3221. *)
  Definition tree_printy (s : coarse) (tree_id start_id : Z) (out : list narval) : res (list narval) :=
    print_walk (fuel O c) s tree_id start_id 0 0 (repeat (-1) (Z.to_nat max_stack_size)) out.
  (** l.3222-3225. *)
  Definition printy (s : coarse) : res (list narval) :=
    forZ (Z.to_nat tree_count) 0 (fun i out => do root <- rd (roots O (fr O s)) i; tree_printy s i root out) [].

  (** A line that starts with "Loutre". *)
  Record loutre : Type := mkLoutre { lt_total : Z; lt_tree : Z; lt_label : Z; lt_prediction : Z; lt_scores : list (num O) }.
  (** l.3226-3248: [sum_scores] is not initialised, and receives the scores of each tree in turn. *)
  Definition scory (s : coarse) (features : list (num O)) (label : Z) : res (coarse * list loutre) :=
    do s <- update_all O c s;
    do (out, sum_scores) <- forZ (Z.to_nat tree_count) 0
      (fun i '(out, _) =>
         do scores <- predict_tree O exp_ c s features i (-1);
         do prediction <- index_max (fun a b => nlt O b a) scores label_count;
         Ok (out ++ [mkLoutre (total O s) i label prediction scores], Some scores)) ([], None);
    do sum_scores <- match sum_scores with Some scores => Ok scores | None => Undef Uninitialised end;
    do prediction <- index_max (fun a b => nlt O b a) sum_scores label_count;
    Ok (s, out ++ [mkLoutre (total O s) (-1) label prediction sum_scores]).
  (** l.2908-3045 with [print_nodes]: what l.2914 prints, then training, then what l.2987 prints (it comes after everything that the training changes). *)
  Definition train_print (s : coarse) (features : list (num O)) (label : Z) : res (coarse * bool * (list loutre * list narval)) :=
    do (s, scores) <- scory s features label;
    do (s, b) <- train O log_ rnd c s features label;
    do lines <- (if ((0 <? total O s) && (total O s <=? 500)) || ((0 <? total O s) && (Z.rem (total O s) 5 =? 0)) then printy s else Ok []);
    Ok (s, b, (scores, lines)).
End Print.
Arguments nv_total {O}. Arguments nv_tree {O}. Arguments nv_node {O}. Arguments nv_depth {O}. Arguments nv_leaf {O}. Arguments nv_contents {O}.
Arguments lt_total {O}. Arguments lt_tree {O}. Arguments lt_label {O}. Arguments lt_prediction {O}. Arguments lt_scores {O}.
