(** * Model of src/mondrian_unbound.hpp

    Line numbers are those of mondrian_unbound.hpp. Nodes live in a heap that only grows: the pointer to the [k]-th node ever
    allocated is [k], and [nullptr] is [-1], whose dereference is out of bounds. The memory is never exhausted. Nodes
    have the fields of [Mondrian_Model.node]; whether a node is a [LeafNode] or an [InternalNode] is told by
    [split_dimension], which l.270 sets right after an [InternalNode] is created. Simplifications: the
    counters that nothing reads (l.218-220) and the casts to [char] of numbers that are 0 or 1 (l.188-189, 198-199) are left out;
    the destructor is not modelled; as in [Mondrian_Model], features are of the type of the operations, [func::exp], [func::log] and the draws
    are parameters, recursions take a number of steps. The functions of mondrian.hpp that this file repeats word for word are not written again:
    [parent_time] (l.234, 92), [distances] (l.238-243), [joined_box] (l.277-280), [update_box] (l.60-68),
    [compute_eta] (l.84-89), [compute_posterior_mean] (l.90-114; [Utils::min] of two doubles that are integers is the double of their minimum). *)
From Coq Require Import ZArith List Bool.
From Verif Require Import CppBase NumOps Utils_Model Mondrian_Model.
Import ListNotations.
Local Open Scope Z_scope.

(** [long long int]. *)
Definition slong (x : Z) : res Z :=
  if (-9223372036854775808 <=? x) && (x <=? 9223372036854775807) then Ok x else Undef SignedOverflow.

Section Unbound.
  Variable O : ops.
  Variable exp_ log_ : num O -> num O.
  Variable rnd : nat -> num O.
  Variable tree_count feature_count label_count : Z.
  Variable lifetime base_measure discount_factor : num O.
  Local Notation n_ := (nofZ O).
  Local Notation node := (node O).
  Local Notation forest := (forest O).
  Local Notation nodes := (nodes O).
  Local Notation roots := (roots O).

  (** l.37-43, 134-137, 159-164: a new leaf or internal node. *)
  Definition new_node (split : option (num O)) : node :=
    mkNode O (-1) split (repeat (Some (n_ 0)) (Z.to_nat feature_count)) (repeat (Some (n_ 0)) (Z.to_nat feature_count)) (-1) (-1) (-1) (n_ (-1))
      (repeat 0 (Z.to_nat label_count)).
  Definition new_leaf : node := new_node None.
  Definition new_internal : node := new_node (Some (n_ (-1))).
  (** [new]: the pointer and the heap after it. *)
  Definition alloc (f : forest) (n : node) : Z * forest :=
    (Z.of_nat (length (nodes f)), mkForest O (nodes f ++ [n]) (roots f) (drawn O f)).

  (** l.446-453. *)
  Definition forest_init : forest := mkForest O [] (repeat (-1) (Z.to_nat tree_count)) 0.

  (** l.186-190, 196-200: the counter of an internal node for one label. *)
  Definition recount (f : forest) (node_id label : Z) : res forest :=
    do n <- rd (nodes f) node_id;
    do l <- rd (nodes f) (child_left O n);
    do cl <- rd (counters O l) label;
    do r <- rd (nodes f) (child_right O n);
    do cr <- rd (counters O r) label;
    with_node O f node_id (fun n => do cs <- wr (counters O n) label (Z.min 1 cl + Z.min 1 cr); Ok (set_counters O n cs)).
  (** l.139: the counter of a leaf. *)
  Definition add_count (f : forest) (node_id label qty : Z) : res forest :=
    with_node O f node_id
      (fun n =>
         do c <- rd (counters O n) label;
         do c <- slong (c + qty);
         do cs <- wr (counters O n) label c;
         Ok (set_counters O n cs)).
  (** A method that calls itself on the parent at the end. *)
  Fixpoint climb (visit : forest -> Z -> node -> res forest) (steps : nat) (f : forest) (node_id : Z) : res forest :=
    match steps with
    | Datatypes.O => NoFuel
    | S steps =>
        do n <- rd (nodes f) node_id;
        do f <- visit f node_id n;
        if parent O n =? -1 then Ok f else climb visit steps f (parent O n)
    end.
  (** l.138-142, 183-193 [update_counters(label, qty)]. *)
  Definition update_label (f : forest) (node_id label qty : Z) : res forest :=
    climb (fun f i n => if is_leaf O n then add_count f i label qty else recount f i label) (S (length (nodes f))) f node_id.
  (** l.143-146, 194-204 [update_counters()]. *)
  Definition update_labels (f : forest) (node_id : Z) : res forest :=
    climb (fun f i n => if is_leaf O n then Ok f else forZ (Z.to_nat label_count) 0 (fun label f => recount f i label) f) (S (length (nodes f))) f node_id.

  (** l.344-351, with [set_bounds] (l.53-59). *)
  Definition sample_block (f : forest) (node_id : Z) (features : list (num O)) (label : Z) : res forest :=
    do (l, u) <- forZ (Z.to_nat feature_count) 0
      (fun i '(l, u) => do x <- rd features i; Ok (l ++ [Some x], u ++ [Some x])) ([], []);
    do f <- with_node O f node_id (fun n => Ok (set_box O n l u));
    do f <- update_label f node_id label 1;
    with_node O f node_id (fun n => Ok (set_tau O n lifetime)).

  (** l.248-264: the dimension, the upper value and the place of the split. *)
  Definition choose_split (f : forest) (n : node) (features probs : list (num O)) (sum : num O) : res (forest * (Z * (num O * num O))) :=
    do probs <- turn_array_into_probability O probs feature_count sum;
    let (u, f) := uniform O rnd f in
    do dimension <- pick_from_distribution O u probs feature_count;
    do x <- rd features dimension;
    do hi <- rdi (bound_upper O n) dimension;
    do lo <- rdi (bound_lower O n) dimension;
    do (lower_value, upper_value) <-
      (if nlt O hi x then Ok (hi, x)
       else if nlt O x lo then Ok (x, lo)
       else Undef Uninitialised);
    let (u, f) := uniform O rnd f in
    Ok (f, (dimension, (upper_value, nadd O (nmul O u (nsub O upper_value lower_value)) lower_value))).

  (** l.265-307: creates and links the new parent and the new sibling, and returns them. *)
  Definition insert_above (f : forest) (node_id tree_id : Z) (features : list (num O)) (dimension : Z) (upper_value split time : num O)
      : res (forest * (Z * Z)) :=
    let (new_parent, f) := alloc f new_internal in
    let (new_sibling, f) := alloc f new_leaf in
    do f <- with_node O f new_parent (fun p => Ok (set_split O p dimension split time));
    do n <- rd (nodes f) node_id;
    do (l, u) <- joined_box O feature_count n features;
    do f <- with_node O f new_parent (fun p => Ok (set_box O p l u));
    do n <- rd (nodes f) node_id;
    do f <- with_node O f new_parent (fun p => Ok (set_parent O p (parent O n)));
    do n <- rd (nodes f) node_id;
    do root <- rd (roots f) tree_id;
    do f <-
      (if (parent O n =? -1) && (node_id =? root)
       then do rs <- wr (roots f) tree_id new_parent; Ok (mkForest O (nodes f) rs (drawn O f))
       else with_node O f (parent O n)
              (fun p => Ok (if child_left O p =? node_id then set_children O p new_parent (child_right O p)
                            else set_children O p (child_left O p) new_parent)));
    do f <- with_node O f node_id (fun n => Ok (set_parent O n new_parent));
    do f <- with_node O f new_sibling (fun s => Ok (set_parent O s new_parent));
    do x <- rd features dimension;
    do f <- with_node O f new_parent
      (fun p => Ok (if neq O x upper_value then set_children O p node_id new_sibling else set_children O p new_sibling node_id));
    Ok (f, (new_parent, new_sibling)).

  (** l.229-337. *)
  Fixpoint extend_block (steps : nat) (f : forest) (node_id tree_id : Z) (features : list (num O)) (label : Z) : res forest :=
    match steps with
    | Datatypes.O => NoFuel
    | S steps =>
        do n <- rd (nodes f) node_id;
        do parent_tau <- parent_time O f n;
        do (probs, sum) <- distances O feature_count n features;
        let (e, f) :=
          if neq O sum (n_ 0) then (n_ (-1), f)
          else let (u, f) := uniform O rnd f in (rand_exponential O log_ u sum, f) in
        if nle O (n_ 0) e && nlt O (nadd O parent_tau e) (tau O n) then
          do (f, (dimension, (upper_value, split))) <- choose_split f n features probs sum;
          do (f, (new_parent, new_sibling)) <- insert_above f node_id tree_id features dimension upper_value split (nadd O parent_tau e);
          do f <- sample_block f new_sibling features label;
          update_labels f new_parent
        else
          do f <- with_node O f node_id (fun n => update_box O feature_count n features);
          do n <- rd (nodes f) node_id;
          if is_leaf O n then update_label f node_id label 1
          else
            do x <- rd features (split_dimension O n);
            do v <- match split_value O n with Some v => Ok v | None => Undef Uninitialised end;
            extend_block steps f (if nle O x v then child_left O n else child_right O n) tree_id features label
    end.

  (** l.359-374. *)
  Definition train_tree (f : forest) (features : list (num O)) (label tree_id : Z) : res forest :=
    do root <- rd (roots f) tree_id;
    if root =? -1 then
      let (leafroot, f) := alloc f new_leaf in
      do rs <- wr (roots f) tree_id leafroot;
      sample_block (mkForest O (nodes f) rs (drawn O f)) leafroot features label
    else extend_block (S (length (nodes f))) f root tree_id features label.

  (** l.460-469. The second component is the returned [bool], [None] when it was never written
      (using it is undefined in C++; the state of the forest does not depend on it). *)
  Definition train (f : forest) (features : list (num O)) (label : Z) : res (forest * option bool) :=
    forZ (Z.to_nat tree_count) 0
      (fun i '(f, fully_trained) =>
         do f <- train_tree f features label i;
         let has_trained := true in
         Ok (f, if negb has_trained then Some false else fully_trained)) (f, None).

  (** l.383-438 is [Mondrian_Model.predict_tree] word for word ([delta_tau] uses the 0 of l.391); l.476-489 is the same sum over the trees. *)
  Definition forest_means (f : forest) (features : list (num O)) : res (list (num O)) :=
    forest_means O exp_ tree_count feature_count label_count (Z.of_nat (length (nodes f))) base_measure discount_factor f features.
  (** l.475-498: the label; the forest and the caller's array [scores] are not changed. *)
  Definition predict (f : forest) (features : list (num O)) (scores : option (list (num O))) : res (Z * option (list (num O))) :=
    do means <- forest_means f features;
    do best <- index_max (fun a b => nlt O b a) means label_count;
    Ok (best, scores).
End Unbound.
