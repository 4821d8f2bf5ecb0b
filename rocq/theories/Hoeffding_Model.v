(** * Model of src/hoeffding_tree.hpp

    Simplifications: the byte buffer is modelled by its two uses, the nodes stored from its
    beginning and the blocks of counters stored from its end (block [k] ends [k] blocks before
    the end); a block that does not fit is out of bounds. [sizeof(Node)] is a parameter;
    alignment (a block starts with an [int] followed by doubles) is not modelled. The points
    are doubles. [func::isnan] is [x != x]; [func::log] and [func::log2] are parameters. *)
From Coq Require Import ZArith List Bool.
From Verif Require Import CppBase NumOps.
Import ListNotations.
Local Open Scope Z_scope.

Section Hoeffding.
  Variable O : ops.
  Variable log_ log2_ : num O -> num O.
  (** [std::numeric_limits<float>::infinity()]. *)
  Variable infinity : num O.
  Variable feature_count label_count max_size node_size : Z.
  Local Notation n_ := (nofZ O).
  Definition isnan (x : num O) : bool := negb (neq O x x).

  (** l.27-40; [split_value] is set by [split]. *)
  Record node : Type := mkNode {
    split_feature : Z;
    split_value : option (num O);
    l_box : list (num O);
    u_box : list (num O);
    child_left : Z;
    child_right : Z }.

  (** The memory of one leaf (l.400-434): number of points, limits, sums of information gains,
      and for each label the counters of the bins of all features. *)
  Record block : Type := mkBlock {
    count : Z;
    limits : list (num O);
    info_sum : list (num O);
    counters : list (list Z) }.

  (** l.16-24. [buffer_offset] is the number of nodes times [sizeof(Node)]. *)
  Record tree : Type := mkTree {
    nodes : list node;
    blocks : list block;
    buffer_preset : Z;
    delta : num O;
    features_size : list Z;
    sum_feature_size : Z }.

  (** l.445-450. *)
  Definition total_size_counters (sum : Z) : Z := 4 + 2 * (sum - feature_count) * 8 + sum * 4 * label_count.

  (** l.457-463: zero bytes. *)
  Definition zero_block (sum : Z) : block :=
    mkBlock 0 (repeat (n_ 0) (Z.to_nat (sum - feature_count))) (repeat (n_ 0) (Z.to_nat (sum - feature_count)))
      (repeat (repeat 0 (Z.to_nat sum)) (Z.to_nat label_count)).

  (** l.411, 428, 460: the block designated by a negative [split_feature]. *)
  Definition get_block (t : tree) (sf : Z) : res block := rd (blocks t) (- sf - 1).
  Definition set_block (t : tree) (sf : Z) (b : block) : res tree :=
    do bs <- wr (blocks t) (- sf - 1) b;
    Ok (mkTree (nodes t) bs (buffer_preset t) (delta t) (features_size t) (sum_feature_size t)).
  Definition set_node (t : tree) (i : Z) (n : node) : res tree :=
    do ns <- wr (nodes t) i n;
    Ok (mkTree ns (blocks t) (buffer_preset t) (delta t) (features_size t) (sum_feature_size t)).
  Definition add_node (t : tree) (n : node) : tree :=
    mkTree (nodes t ++ [n]) (blocks t) (buffer_preset t) (delta t) (features_size t) (sum_feature_size t).

  (** l.329-337: [operator new]. It is not [noexcept], so a null result is passed to the constructor. *)
  Definition allocate (t : tree) : res unit :=
    if (Z.of_nat (length (nodes t)) + 1) * node_size >? buffer_preset t - total_size_counters (sum_feature_size t)
    then Undef NullDeref else Ok tt.

  (** l.46-65: a new node in a new place (the index is the former number of nodes). *)
  Definition new_node (t : tree) : res tree :=
    do _ <- allocate t;
    let total := total_size_counters (sum_feature_size t) in
    let tmp_preset := buffer_preset t - total in
    let sf := - ((max_size - tmp_preset) / total) in
    do t <- set_block t sf (zero_block (sum_feature_size t));
    let box := repeat infinity (Z.to_nat feature_count) in
    Ok (add_node t (mkNode sf None (map (nopp O) box) box (-1) (-1))).

  (** l.71-81: a new node that takes over the block and the box of [parent]. *)
  Definition copy_node (t : tree) (parent : node) : res tree :=
    do _ <- allocate t;
    do t <- set_block t (split_feature parent) (zero_block (sum_feature_size t));
    Ok (add_node t (mkNode (split_feature parent) None (l_box parent) (u_box parent) (-1) (-1))).

  Definition is_leaf (n : node) : bool := split_feature n <? 0.

  (** l.308-322. *)
  Definition select_split_values (t : tree) (i : Z) : res tree :=
    do n <- rd (nodes t) i;
    do b <- get_block t (split_feature n);
    do (lims, _) <- forZ (Z.to_nat feature_count) 0
      (fun f '(lims, k) =>
         do u <- rd (u_box n) f;
         do l <- rd (l_box n) f;
         do s <- rd (features_size t) f;
         let width := nsub O u l in
         let step := ndiv O width (n_ s) in
         forZ (Z.to_nat (s - 1)) 1
           (fun j '(lims, k) =>
              do lims <- wr lims k (nadd O l (nmul O (n_ j) step));
              Ok (lims, k + 1)) (lims, k)) (limits b, 0);
    set_block t (split_feature n) (mkBlock (count b) lims (info_sum b) (counters b)).

  (** l.126-154. *)
  Definition split (t : tree) (i feature : Z) (value : num O) : res tree :=
    let right := Z.of_nat (length (nodes t)) in
    do t <- new_node t;
    do this <- rd (nodes t) i;
    let left := Z.of_nat (length (nodes t)) in
    do t <- copy_node t this;
    do t <- set_node t i (mkNode feature (Some value) (l_box this) (u_box this) left right);
    do nr <- rd (nodes t) right;
    do nl <- rd (nodes t) left;
    do ul <- wr (u_box nl) feature value;
    do lr <- wr (l_box this) feature value;
    do t <- set_node t left (mkNode (split_feature nl) (split_value nl) (l_box nl) ul (child_left nl) (child_right nl));
    do t <- set_node t right (mkNode (split_feature nr) (split_value nr) lr (u_box this) (child_left nr) (child_right nr));
    do t <- select_split_values t right;
    select_split_values t left.

  (** l.346-394: the entropies given each cut of feature [f], written from [output[base]] on. *)
  Definition partial_entropy (sides : list Z) (sum : num O) : res (num O) :=
    forZ (Z.to_nat label_count) 0
      (fun l e =>
         do s <- rd sides l;
         let div := ndiv O (n_ s) sum in
         Ok (if nlt O (n_ 0) div && negb (isnan div) then nadd O e (nmul O div (log2_ div)) else e)) (n_ 0).
  Definition fix_nan (x : num O) : num O := if isnan x then n_ 0 else x.
  Definition compute_entropy (t : tree) (f start_index : Z) (counters : list (list Z)) (output : list (option (num O))) (base : Z)
      : res (list (option (num O))) :=
    do f_size <- rd (features_size t) f;
    do side1 <- forZ (Z.to_nat label_count) 0
      (fun l acc =>
         do c <- rd counters l;
         do s <- forZ (Z.to_nat f_size) 0 (fun v s => do x <- rd c (start_index + v); Ok (s + x)) 0;
         Ok (acc ++ [s])) [];
    do (output, _) <- forZ (Z.to_nat (f_size - 1)) 0
      (fun v '(output, (side0, side1)) =>
         do (side0, (side1, (sum0, sum1))) <- forZ (Z.to_nat label_count) 0
           (fun l '(side0, (side1, (sum0, sum1))) =>
              do c <- rd counters l;
              do x <- rd c (start_index + v);
              do a <- rd side0 l;
              do b <- rd side1 l;
              do side0 <- wr side0 l (a + x);
              do side1 <- wr side1 l (b - x);
              Ok (side0, (side1, (nadd O sum0 (n_ (a + x)), nadd O sum1 (n_ (b - x)))))) (side0, (side1, (n_ 0, n_ 0)));
         let sum := nadd O sum0 sum1 in
         do e0 <- partial_entropy side0 sum0;
         do e1 <- partial_entropy side1 sum1;
         let p0 := fix_nan (ndiv O sum0 sum) in
         let p1 := fix_nan (ndiv O sum1 sum) in
         do output <- wr output (base + v)
           (Some (nadd O (nmul O (nmul O (n_ (-1)) e0) p0) (nmul O (nmul O (n_ (-1)) e1) p1)));
         Ok (output, (side0, side1))) (output, (repeat 0 (Z.to_nat label_count), side1));
    Ok output.

  (** l.268-289. *)
  Definition compute_information_gain (t : tree) (count_data_points : num O) (counters : list (list Z)) : res (list (option (num O))) :=
    do s0 <- rd (features_size t) 0;
    do entropy_leaf <- forZ (Z.to_nat label_count) 0
      (fun l e =>
         do c <- rd counters l;
         do n <- forZ (Z.to_nat s0) 0 (fun v n => do x <- rd c v; Ok (nadd O n (n_ x))) (n_ 0);
         let div := ndiv O n count_data_points in
         Ok (if nlt O (n_ 0) div && negb (isnan div) then nadd O e (nmul O div (log2_ div)) else e)) (n_ 0);
    let entropy_leaf := nmul O entropy_leaf (n_ (-1)) in
    let len := sum_feature_size t - feature_count in
    do (output, _) <- forZ (Z.to_nat feature_count) 0
      (fun f '(output, start_index) =>
         do output <- compute_entropy t f start_index counters output (start_index - f);
         do s <- rd (features_size t) f;
         Ok (output, start_index + s)) (repeat None (Z.to_nat len), 0);
    forZ (Z.to_nat len) 0
      (fun i output => do x <- rdi output i; wr output i (Some (nsub O entropy_leaf x))) output.

  (** l.235-242: the feature of a candidate. *)
  Fixpoint recover_feature (t : tree) (n : nat) (f tmp_c best : Z) : res Z :=
    match n with
    | Datatypes.O => Ok (feature_count - 1)
    | S n =>
        if best <? tmp_c then Ok f
        else do s <- rd (features_size t) (f + 1); recover_feature t n (f + 1) (tmp_c + s) best
    end.

  (** l.211-227: the two best candidates. *)
  Definition two_best (len : Z) (gain : list (option (num O))) : res (Z * Z) :=
    do g0 <- rdi gain 0;
    do g1 <- rdi gain 1;
    forZ (Z.to_nat (len - 2)) 2
      (fun i '(b0, b1) =>
         do g <- rdi gain i;
         do x0 <- rdi gain b0;
         do x1 <- rdi gain b1;
         Ok (if nlt O x0 g then (i, b0) else if nlt O x1 g then (b0, i) else (b0, b1)))
      (if nlt O g0 g1 then (1, 0) else (0, 1)).

  (** l.183-198: the counters of the label after one more point. *)
  Definition count_point (t : tree) (lims : list (num O)) (features : list (num O)) (c : list Z) : res (list Z) :=
    do (c, _) <- forZ (Z.to_nat feature_count) 0
      (fun f '(c, start) =>
         do x <- rd features f;
         do s <- rd (features_size t) f;
         do found <- findZ (Z.to_nat (s - 1)) 0
           (fun k => do lim <- rd lims (start + k - f); Ok (if nlt O x lim then Some k else None));
         let bin := match found with Some k => k | None => s - 1 end in
         do v <- rd c (start + bin);
         do v <- sint (v + 1);
         do c <- wr c (start + bin) v;
         Ok (c, start + s)) (c, 0);
    Ok c.

  (** l.178-181. *)
  Definition grow_box (n : node) (features : list (num O)) : res node :=
    do (l, u) <- forZ (Z.to_nat feature_count) 0
      (fun f '(l, u) =>
         do x <- rd features f;
         do uf <- rd u f;
         do lf <- rd l f;
         do u <- wr u f (if nlt O uf x then x else uf);
         do l <- wr l f (if nlt O x lf then x else lf);
         Ok (l, u)) (l_box n, u_box n);
    Ok (mkNode (split_feature n) (split_value n) l u (child_left n) (child_right n)).

  (** l.161-245: the tree, and the chosen feature with its limit, or none. *)
  Definition train_node (t : tree) (i : Z) (features : list (num O)) (label : Z) : res (tree * option (Z * num O)) :=
    do n <- rd (nodes t) i;
    do b <- get_block t (split_feature n);
    do c <- rd (counters b) label;
    do cnt <- sint (count b + 1);
    do n <- grow_box n features;
    do t <- set_node t i n;
    do c <- count_point t (limits b) features c;
    do cs <- wr (counters b) label c;
    let d_count := n_ cnt in
    do gain <- compute_information_gain t d_count cs;
    let len := sum_feature_size t - feature_count in
    do (sums, gain) <- forZ (Z.to_nat len) 0
      (fun k '(sums, gain) =>
         do s <- rd sums k;
         do g <- rdi gain k;
         let s := nadd O s g in
         do sums <- wr sums k s;
         do gain <- wr gain k (Some (ndiv O s d_count));
         Ok (sums, gain)) (info_sum b, gain);
    do t <- set_block t (split_feature n) (mkBlock cnt (limits b) sums cs);
    do (b0, b1) <- two_best len gain;
    let epsilon := ndiv O (nmul O (n_ 4) (log_ (ndiv O (n_ 1) (delta t)))) (nmul O (n_ 2) d_count) in
    do g0 <- rdi gain b0;
    do g1 <- rdi gain b1;
    let diff := nsub O g0 g1 in
    if nlt O epsilon (nmul O diff diff) && nlt O (n_ 0) g0 then
      do v <- rd (limits b) b0;
      do s0 <- rd (features_size t) 0;
      do f <- recover_feature t (Z.to_nat (feature_count - 1)) 0 s0 b0;
      Ok (t, Some (f, v))
    else Ok (t, None).

  (** l.483-492. *)
  Definition tree_init (delta : num O) (sizes : list Z) : res tree :=
    do (fs, sum) <- forZ (Z.to_nat feature_count) 0
      (fun i '(fs, sum) => do s <- rd sizes i; Ok (fs ++ [s], sum + s)) ([], 0);
    let total := total_size_counters sum in
    new_node (mkTree [] (repeat (zero_block sum) (Z.to_nat (max_size / total))) max_size delta fs sum).

  (** l.545-559: index of the node reached. *)
  Fixpoint descend (t : tree) (steps : nat) (i : Z) (features : list (num O)) : res Z :=
    do n <- rd (nodes t) i;
    match steps with
    | Datatypes.O => Ok i
    | S steps =>
        if is_leaf n then Ok i
        else
          do x <- rd features (split_feature n);
          do v <- match split_value n with Some v => Ok v | None => Undef Uninitialised end;
          descend t steps (if nle O x v then child_left n else child_right n) features
    end.
  Definition sort_in_leaf (t : tree) (features : list (num O)) : res Z :=
    descend t (Z.to_nat (max_size / node_size)) 0 features.

  (** l.499-513. *)
  Definition train (t : tree) (features : list (num O)) (label : Z) : res (tree * bool) :=
    do leaf <- sort_in_leaf t features;
    do (t, choice) <- train_node t leaf features label;
    match choice with
    | None => Ok (t, true)
    | Some (f, v) =>
        do t <- split t leaf f v;
        do x <- rd features f;
        do n <- rd (nodes t) leaf;
        do (t, _) <- train_node t (if nle O x v then child_left n else child_right n) features label;
        Ok (t, true)
    end.

  (** l.93-119: the probabilities. *)
  Definition predict_node (t : tree) (i : Z) : res (list (num O)) :=
    do n <- rd (nodes t) i;
    do b <- get_block t (split_feature n);
    do s0 <- rd (features_size t) 0;
    do (counts, sum) <- forZ (Z.to_nat label_count) 0
      (fun l '(counts, sum) =>
         do c <- rd (counters b) l;
         do n <- forZ (Z.to_nat s0) 0 (fun v n => do x <- rd c v; Ok (nadd O n (n_ x))) (n_ 0);
         Ok (counts ++ [n], nadd O sum n)) ([], n_ 0);
    Ok (map (fun c => ndiv O c sum) counts).

  (** l.520-533: the label and the scores. *)
  Definition predict (t : tree) (features : list (num O)) : res (Z * list (num O)) :=
    do leaf <- sort_in_leaf t features;
    do p <- predict_node t leaf;
    do best <- forZ (Z.to_nat (label_count - 1)) 1
      (fun i best => do x <- rd p i; do y <- rd p best; Ok (if nlt O y x then i else best)) 0;
    Ok (best, p).

  (** l.537-539 with l.294-301: [get_root()->set_limits(new_limits)]. *)
  Definition set_limits (t : tree) (new_limits : list (num O)) : res tree :=
    do n <- rd (nodes t) 0;
    do b <- get_block t (split_feature n);
    do lims <- forZ (Z.to_nat (sum_feature_size t - feature_count)) 0
      (fun i lims => do v <- rd new_limits i; wr lims i v) (limits b);
    set_block t (split_feature n) (mkBlock (count b) lims (info_sum b) (counters b)).
End Hoeffding.
