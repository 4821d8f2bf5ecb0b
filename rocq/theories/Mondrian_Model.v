(** * Model of src/mondrian.hpp

    Simplifications: features are of the type of the operations ([double] for [dops]); [MAX_NODE] (the number
    of nodes that fit in [max_size] bytes) is a parameter; the [k]-th result of [func::rand_uniform] is [rnd k], and the
    forest records how many were used; the constructor arguments are parameters. [func::exp] and [func::log]
    are parameters. The recursions take a number of steps; running out of them is [NoFuel]. *)
From Coq Require Import ZArith List Bool.
From Verif Require Import CppBase NumOps Utils_Model.
Import ListNotations.
Local Open Scope Z_scope.

Section Node.
  Variable O : ops.
  (** l.21-36. [None] is a value that was never written. *)
  Record node : Type := mkNode {
    split_dimension : Z;
    split_value : option (num O);
    bound_lower : list (option (num O));
    bound_upper : list (option (num O));
    child_left : Z;
    child_right : Z;
    parent : Z;
    tau : num O;
    counters : list Z }.
  Definition set_split (n : node) (d : Z) (v t : num O) : node :=
    mkNode d (Some v) (bound_lower n) (bound_upper n) (child_left n) (child_right n) (parent n) t (counters n).
  Definition set_box (n : node) (l u : list (option (num O))) : node :=
    mkNode (split_dimension n) (split_value n) l u (child_left n) (child_right n) (parent n) (tau n) (counters n).
  Definition set_children (n : node) (l r : Z) : node :=
    mkNode (split_dimension n) (split_value n) (bound_lower n) (bound_upper n) l r (parent n) (tau n) (counters n).
  Definition set_parent (n : node) (p : Z) : node :=
    mkNode (split_dimension n) (split_value n) (bound_lower n) (bound_upper n) (child_left n) (child_right n) p (tau n) (counters n).
  Definition set_tau (n : node) (t : num O) : node :=
    mkNode (split_dimension n) (split_value n) (bound_lower n) (bound_upper n) (child_left n) (child_right n) (parent n) t (counters n).
  Definition set_counters (n : node) (c : list Z) : node :=
    mkNode (split_dimension n) (split_value n) (bound_lower n) (bound_upper n) (child_left n) (child_right n) (parent n) (tau n) c.
  (** l.83-91. *)
  Definition available (n : node) : bool := nlt O (tau n) (nofZ O 0).
  Definition is_leaf (n : node) : bool := split_dimension n =? -1.
End Node.

Section Mondrian.
  Variable O : ops.
  Variable exp_ log_ : num O -> num O.
  Variable rnd : nat -> num O.
  Variable tree_count feature_count label_count max_node : Z.
  Variable lifetime base_measure discount_factor : num O.
  Local Notation n_ := (nofZ O).
  Local Notation node := (node O).

  (** l.40-47. *)
  Definition empty_node : node :=
    mkNode O (-1) None (repeat None (Z.to_nat feature_count)) (repeat None (Z.to_nat feature_count)) (-1) (-1) (-1) (n_ (-1))
      (repeat 0 (Z.to_nat label_count)).

  Record forest : Type := mkForest { nodes : list node; roots : list Z; drawn : nat }.
  Definition with_node (f : forest) (i : Z) (g : node -> res node) : res forest :=
    do n <- rd (nodes f) i;
    do n <- g n;
    do ns <- wr (nodes f) i n;
    Ok (mkForest ns (roots f) (drawn f)).
  Definition uniform (f : forest) : num O * forest := (rnd (drawn f), mkForest (nodes f) (roots f) (S (drawn f))).

  (** l.435-442. *)
  Definition forest_init : forest := mkForest (repeat empty_node (Z.to_nat max_node)) (repeat (-1) (Z.to_nat tree_count)) 0.

  (** l.111-116. *)
  Definition available_node (f : forest) : res Z :=
    do r <- findZ (Z.to_nat max_node) 0 (fun i => do n <- rd (nodes f) i; Ok (if available O n then Some i else None));
    Ok (match r with Some i => i | None => -1 end).

  (** l.130, 308. *)
  Definition parent_time (f : forest) (n : node) : res (num O) :=
    if 0 <=? parent O n then do p <- rd (nodes f) (parent O n); Ok (tau O p) else Ok (n_ 0).

  (** l.134-139: [probabilities] and [sum]. *)
  Definition distances (n : node) (features : list (num O)) : res (list (num O) * num O) :=
    forZ (Z.to_nat feature_count) 0
      (fun i '(probs, sum) =>
         do lo <- rdi (bound_lower O n) i;
         do hi <- rdi (bound_upper O n) i;
         do x <- rd features i;
         let e_lower := if nlt O (n_ 0) (nsub O lo x) then nsub O lo x else n_ 0 in
         let e_upper := if nlt O (n_ 0) (nsub O x hi) then nsub O x hi else n_ 0 in
         let e := nadd O e_lower e_upper in
         Ok (probs ++ [e], nadd O sum e)) ([], n_ 0).

  (** l.259-271. *)
  Definition sample_block (f : forest) (node_id : Z) (features : list (num O)) (label : Z) : res forest :=
    do (l, u) <- forZ (Z.to_nat feature_count) 0
      (fun i '(l, u) => do x <- rd features i; Ok (l ++ [Some x], u ++ [Some x])) ([], []);
    with_node f node_id
      (fun n =>
         do c <- rd (counters O n) label;
         do c <- sint (c + 1);
         do cs <- wr (counters O n) label c;
         Ok (set_tau O (set_counters O (set_box O n l u) cs) lifetime)).

  (** l.177-180. *)
  Definition joined_box (n : node) (features : list (num O)) : res (list (option (num O)) * list (option (num O))) :=
    forZ (Z.to_nat feature_count) 0
      (fun i '(l, u) =>
         do x <- rd features i;
         do lo <- rdi (bound_lower O n) i;
         do hi <- rdi (bound_upper O n) i;
         Ok (l ++ [Some (if nlt O x lo then x else lo)], u ++ [Some (if nlt O hi x then x else hi)])) ([], []).

  (** l.146-163: the dimension, the upper value and the place of the split. *)
  Definition choose_split (f : forest) (n : node) (features probs : list (num O)) (sum : num O) : res (forest * (Z * (num O * num O))) :=
    do probs <- turn_array_into_probability O probs feature_count sum;
    let (u, f) := uniform f in
    do dimension <- pick_from_distribution O u probs feature_count;
    do (f, dimension) <-
      (if (feature_count <=? dimension) || (dimension <? 0)
       then let (u, f) := uniform f in do d <- n2int O (nmul O u (n_ feature_count)); Ok (f, d)
       else Ok (f, dimension));
    do x <- rd features dimension;
    do hi <- rdi (bound_upper O n) dimension;
    do lo <- rdi (bound_lower O n) dimension;
    do (lower_value, upper_value) <-
      (if nlt O hi x then Ok (hi, x)
       else if nlt O x lo then Ok (x, lo)
       else Undef Uninitialised);
    let (u, f) := uniform f in
    Ok (f, (dimension, (upper_value, nadd O (nmul O u (nsub O upper_value lower_value)) lower_value))).

  (** l.176-216: links the new parent and the new sibling; [node_id] gets the new parent. *)
  Definition insert_above (f : forest) (node_id tree_id : Z) (features : list (num O)) (label dimension : Z) (upper_value : num O)
      (new_parent new_sibling : Z) : res forest :=
    do n <- rd (nodes f) node_id;
    do (l, u) <- joined_box n features;
    do f <- with_node f new_parent (fun p => Ok (set_box O p l u));
    do f <- with_node f new_sibling (fun s => Ok (set_counters O s (repeat 0 (Z.to_nat label_count))));
    do n <- rd (nodes f) node_id;
    do f <- with_node f new_parent (fun p => Ok (set_parent O p (parent O n)));
    do n <- rd (nodes f) node_id;
    do root <- rd (roots f) tree_id;
    do f <-
      (if (parent O n =? -1) && (node_id =? root)
       then do rs <- wr (roots f) tree_id new_parent; Ok (mkForest (nodes f) rs (drawn f))
       else with_node f (parent O n)
              (fun p => Ok (if child_left O p =? node_id then set_children O p new_parent (child_right O p)
                            else set_children O p (child_left O p) new_parent)));
    do f <- with_node f node_id (fun n => Ok (set_parent O n new_parent));
    do f <- with_node f new_sibling (fun s => Ok (set_parent O s new_parent));
    do x <- rd features dimension;
    do f <- with_node f new_parent
      (fun p => Ok (if neq O x upper_value then set_children O p node_id new_sibling else set_children O p new_sibling node_id));
    sample_block f new_sibling features label.

  (** l.231-237. *)
  Definition update_box (n : node) (features : list (num O)) : res node :=
    do (l, u) <- forZ (Z.to_nat feature_count) 0
      (fun i '(l, u) =>
         do x <- rd features i;
         do lo <- rdi l i;
         do l <- wr l i (Some (if nlt O x lo then x else lo));
         do hi <- rdi u i;
         do u <- wr u i (Some (if nlt O hi x then x else hi));
         Ok (l, u)) (bound_lower O n, bound_upper O n);
    Ok (set_box O n l u).

  (** l.124-252. *)
  Fixpoint extend_block (steps : nat) (f : forest) (node_id tree_id : Z) (features : list (num O)) (label : Z) : res forest :=
    match steps with
    | Datatypes.O => NoFuel
    | S steps =>
        do n <- rd (nodes f) node_id;
        do parent_tau <- parent_time f n;
        do (probs, sum) <- distances n features;
        let (e, f) :=
          if neq O sum (n_ 0) then (n_ (-1), f)
          else let (u, f) := uniform f in (rand_exponential O log_ u sum, f) in
        do (done, f) <-
          (if nle O (n_ 0) e && nlt O (nadd O parent_tau e) (tau O n) then
             do (f, (dimension, (upper_value, split))) <- choose_split f n features probs sum;
             do new_parent <- available_node f;
             if 0 <=? new_parent then
               do f <- with_node f new_parent (fun p => Ok (set_split O p dimension split (nadd O parent_tau e)));
               do new_sibling <- available_node f;
               if 0 <=? new_sibling then
                 do f <- insert_above f node_id tree_id features label dimension upper_value new_parent new_sibling;
                 Ok (true, f)
               else Ok (false, f)
             else Ok (false, f)
           else Ok (false, f));
        if (done : bool) then Ok f
        else
          do f <- with_node f node_id (fun n => update_box n features);
          do n <- rd (nodes f) node_id;
          if is_leaf O n then
            with_node f node_id
              (fun n =>
                 do c <- rd (counters O n) label;
                 do c <- sint (c + 1);
                 do cs <- wr (counters O n) label c;
                 Ok (set_counters O n cs))
          else
            do x <- rd features (split_dimension O n);
            do v <- match split_value O n with Some v => Ok v | None => Undef Uninitialised end;
            if nle O x v then extend_block steps f (child_left O n) tree_id features label
            else if nlt O v x then extend_block steps f (child_right O n) tree_id features label
            else Ok f
    end.

  (** l.279-300. *)
  Definition train_tree (f : forest) (features : list (num O)) (label tree_id : Z) : res forest :=
    do root_id <- rd (roots f) tree_id;
    if root_id =? -1 then
      do root_id <- available_node f;
      do rs <- wr (roots f) tree_id root_id;
      let f := mkForest (nodes f) rs (drawn f) in
      do f <- with_node f root_id (fun n => Ok (set_tau O (set_children O (set_parent O n (-1)) (-1) (-1)) (n_ 0)));
      sample_block f root_id features label
    else extend_block (S (Z.to_nat max_node)) f root_id tree_id features label.

  (** l.449-457. The second component is the returned [bool], [None] when it was never written
      (using it is undefined in C++; the state of the forest does not depend on it). *)
  Definition train (f : forest) (features : list (num O)) (label : Z) : res (forest * option bool) :=
    forZ (Z.to_nat tree_count) 0
      (fun i '(f, fully_trained) =>
         do f <- train_tree f features label i;
         let has_trained := true in
         Ok (f, if negb has_trained then Some false else fully_trained)) (f, None).

  (** l.401-418. *)
  Fixpoint update_posterior_count (steps : nat) (f : forest) (node_id : Z) : res forest :=
    match steps with
    | Datatypes.O => NoFuel
    | S steps =>
        do n <- rd (nodes f) node_id;
        if is_leaf O n then Ok f
        else
          do f <- update_posterior_count steps f (child_left O n);
          do f <- update_posterior_count steps f (child_right O n);
          forZ (Z.to_nat label_count) 0
            (fun i f =>
               do n <- rd (nodes f) node_id;
               do l <- rd (nodes f) (child_left O n);
               do cl <- rd (counters O l) i;
               do r <- rd (nodes f) (child_right O n);
               do cr <- rd (counters O r) i;
               with_node f node_id
                 (fun n => do cs <- wr (counters O n) i (Z.min 1 cl + Z.min 1 cr); Ok (set_counters O n cs))) f
    end.
  (** l.422-427. *)
  Definition update_all (f : forest) : res forest :=
    forZ (Z.to_nat tree_count) 0
      (fun i f =>
         do root <- rd (roots f) i;
         if root =? -1 then Ok f else update_posterior_count (S (Z.to_nat max_node)) f root) f.

  (** l.306-327. *)
  Definition compute_posterior_mean (f : forest) (n : node) (means : list (num O)) : res (list (num O)) :=
    do parent_tau <- parent_time f n;
    let node_discount := exp_ (nmul O discount_factor (nsub O (tau O n) parent_tau)) in
    do (tab, (sum_counters, sum_tab)) <- forZ (Z.to_nat label_count) 0
      (fun i '(tab, (sum_counters, sum_tab)) =>
         do c <- rd (counters O n) i;
         let t := n_ (Z.min c 1) in
         Ok (tab ++ [t], (nadd O sum_counters (n_ c), nadd O sum_tab t))) ([], (n_ 0, n_ 0));
    forZ (Z.to_nat label_count) 0
      (fun i means =>
         do c <- rd (counters O n) i;
         if 0 <? c then
           do t <- rd tab i;
           do m <- rd means i;
           let a := nsub O (n_ c) (nmul O node_discount t) in
           let b := nmul O (nmul O node_discount sum_tab) m in
           wr means i (nadd O (ndiv O a sum_counters) (ndiv O b sum_counters))
         else Ok means) means.

  Definition max0 (x : num O) : num O := if nlt O (n_ 0) x then x else n_ 0.
  Definition expm1 (x : num O) : num O := nsub O (exp_ x) (n_ 1).

  (** l.352-355. *)
  Definition compute_eta (n : node) (features : list (num O)) : res (num O) :=
    forZ (Z.to_nat feature_count) 0
      (fun i eta =>
         do x <- rd features i;
         do hi <- rdi (bound_upper O n) i;
         do lo <- rdi (bound_lower O n) i;
         Ok (nadd O eta (nadd O (max0 (nsub O x hi)) (max0 (nsub O lo x))))) (n_ 0).

  (** l.359-376: the new [smoothed_posterior_means]. *)
  Definition smooth (n : node) (eta delta_tau separated branching : num O) (means smoothed : list (num O)) : res (list (num O)) :=
    if nlt O (n_ 0) branching then
      let new_node_discount :=
        ndiv O (nmul O (ndiv O eta (nadd O eta discount_factor)) (nopp O (expm1 (nmul O (nopp O (nadd O eta discount_factor)) delta_tau))))
          (nopp O (expm1 (nopp O (nmul O eta delta_tau)))) in
      do (c, c_sum) <- forZ (Z.to_nat label_count) 0
        (fun l '(c, c_sum) => do k <- rd (counters O n) l; let x := n_ (Z.min k 1) in Ok (c ++ [x], nadd O c_sum x)) ([], n_ 0);
      forZ (Z.to_nat label_count) 0
        (fun l smoothed =>
           do x <- rd c l;
           do m <- rd means l;
           let mean := nmul O (ndiv O (n_ 1) c_sum) (nadd O (nsub O x (nmul O new_node_discount x)) (nmul O c_sum m)) in
           do s <- rd smoothed l;
           wr smoothed l (nadd O s (nmul O (nmul O separated branching) mean))) smoothed
    else Ok smoothed.

  (** l.349-394; [parent_tau] (l.344) stays 0. *)
  Fixpoint predict_from (steps : nat) (f : forest) (node_id : Z) (features : list (num O)) (separated : num O) (means smoothed : list (num O))
      : res (list (num O)) :=
    match steps with
    | Datatypes.O => NoFuel
    | S steps =>
        if node_id =? -1 then Ok means
        else
          do n <- rd (nodes f) node_id;
          let delta_tau := nsub O (tau O n) (n_ 0) in
          do eta <- compute_eta n features;
          let branching := nsub O (n_ 1) (exp_ (nmul O (nopp O delta_tau) eta)) in
          do smoothed <- smooth n eta delta_tau separated branching means smoothed;
          do means <- compute_posterior_mean f n means;
          if is_leaf O n then
            forZ (Z.to_nat label_count) 0
              (fun l means =>
                 do s <- rd smoothed l;
                 do m <- rd means l;
                 wr means l (nadd O s (nmul O (nmul O separated (nsub O (n_ 1) branching)) m))) means
          else
            let separated := nmul O separated (nsub O (n_ 1) branching) in
            do x <- rd features (split_dimension O n);
            do v <- match split_value O n with Some v => Ok v | None => Undef Uninitialised end;
            predict_from steps f (if nle O x v then child_left O n else child_right O n) features separated means smoothed
    end.
  (** l.336-347. *)
  Definition predict_tree (f : forest) (features : list (num O)) (tree_id : Z) : res (list (num O)) :=
    do root <- rd (roots f) tree_id;
    predict_from (S (S (Z.to_nat max_node))) f root features (n_ 1)
      (repeat base_measure (Z.to_nat label_count)) (repeat (n_ 0) (Z.to_nat label_count)).

  (** l.468-480. *)
  Definition forest_means (f : forest) (features : list (num O)) : res (list (num O)) :=
    do sums <- forZ (Z.to_nat tree_count) 0
      (fun i sums =>
         do p <- predict_tree f features i;
         forZ (Z.to_nat label_count) 0 (fun k sums => do s <- rd sums k; do m <- rd p k; wr sums k (nadd O s m)) sums)
      (repeat (n_ 0) (Z.to_nat label_count));
    Ok (map (fun s => ndiv O s (n_ tree_count)) sums).

  (** l.463-489: the label, and the caller's array [scores]. *)
  Definition predict (f : forest) (features : list (num O)) (scores : option (list (num O))) : res (forest * Z * option (list (num O))) :=
    do f <- update_all f;
    do means <- forest_means f features;
    do best <- index_max (fun a b => nlt O b a) means label_count;
    Ok (f, best, scores).
End Mondrian.
