(** * Model of src/chained_reservoir.hpp *)
From Coq Require Import ZArith List Bool.
From Verif Require Import CppBase Dbl.
Import ListNotations.
Local Open Scope Z_scope.

Section Chained.
  Context {A : Type}.
  (** Template parameter [unsigned int sample_size]. *)
  Variable sample_size : Z.
  (** [rnd k] is the value returned by the [k]-th call of [funct::random]. *)
  Variable rnd : nat -> dbl.

  (** l.17-24: [node].  A pointer is an index into the list of all nodes; the nodes
      of the array [sample] come first, those obtained from [funct::malloc] follow.
      An element never written is [None]. *)
  Record node : Type := mkNode { nxt : option nat; element : option A; stamp : Z }.

  (** l.25-29: the members; [calls] counts the calls of [funct::random]. *)
  Record chained : Type := mkCh { nodes : list node; next : list Z; counter : Z; calls : nat }.

  (** Access through a pointer. *)
  Definition ld (h : list node) (p : nat) : res node :=
    match nth_error h p with Some c => Ok c | None => Undef OutOfBounds end.
  Definition st (h : list node) (p : nat) (c : node) : res (list node) :=
    if Nat.ltb p (length h) then Ok (upd h p c) else Undef OutOfBounds.

  (** [sample + i]. *)
  Definition slot (i : Z) : res nat :=
    if (0 <=? i) && (i <? sample_size) then Ok (Z.to_nat i) else Undef OutOfBounds.

  (** l.35-37: [round]; the result is an int that all callers use as such. *)
  Definition round (d : dbl) : res Z := d2int (dadd d dhalf).

  (** [round(funct::random() * (sample_size-1))] (l.127, l.133, l.137, l.144). *)
  Definition offset (k : nat) : res Z := round (dmul (rnd k) (dofZ (u32 (sample_size - 1)))).

  (** [counter + 1 + round(...)] assigned to an unsigned int (l.127, l.137, l.144). *)
  Definition successor (c : Z) (k : nat) : res Z :=
    do o <- offset k; d2uint (dadd (dofZ (u32 (c + 1))) (dofZ o)).

  (** l.42-48: [clear_chain]; the fuel bounds the recursion. *)
  Fixpoint clear_chain (fuel : nat) (h : list node) (start : option nat) : res (list node) :=
    match start with
    | None => Ok h
    | Some p =>
        match fuel with
        | O => NoFuel
        | S f =>
            do c <- ld h p;
            do h <- st h p (mkNode (nxt c) (element c) 0);
            clear_chain f h (nxt c)
        end
    end.

  (** l.55-80: [push_on_chain] from the cell [current]; [k] is the number of turns
      left of the 5000.  [funct::malloc] is taken to succeed. *)
  Fixpoint push_on_chain (k : nat) (h : list node) (current : nat) (e : A) (timestamp : Z)
      : res (list node) :=
    match k with
    | O => Abort
    | S k' =>
        do c <- ld h current;
        if stamp c =? 0 then st h current (mkNode (nxt c) (Some e) timestamp)
        else
          match nxt c with
          | None =>
              do h' <- st h current (mkNode (Some (length h)) (element c) (stamp c));
              Ok (h' ++ [mkNode None (Some e) timestamp])
          | Some p => push_on_chain k' h p e timestamp
          end
    end.

  (** l.89-98: the first loop of [shift_chain].  [mover] and [receiver] are
      references: assigning them copies the node. *)
  Fixpoint shift_move (fuel : nat) (h : list node) (receiver mover : nat) : res (list node) :=
    match fuel with
    | O => NoFuel
    | S f =>
        do m <- ld h mover;
        do r <- ld h receiver;
        do h <- st h receiver (mkNode (nxt r) (element m) (stamp m));
        do m <- ld h mover;
        match nxt m with
        | None => Ok h
        | Some p =>
            do c <- ld h p;
            do h <- st h mover c;
            do r <- ld h receiver;
            match nxt r with
            | None => Undef NullDeref
            | Some q =>
                do c <- ld h q;
                do h <- st h receiver c;
                shift_move f h receiver mover
            end
        end
    end.

  (** l.100-103: the second loop. *)
  Fixpoint shift_disable (fuel : nat) (h : list node) (receiver : nat) : res (list node) :=
    match fuel with
    | O => NoFuel
    | S f =>
        do r <- ld h receiver;
        match nxt r with
        | None => Ok h
        | Some p =>
            do c <- ld h p;
            do h <- st h receiver (mkNode (nxt c) (element c) 0);
            shift_disable f h receiver
        end
    end.

  (** l.86-104: [shift_chain]. *)
  Definition shift_chain (h : list node) (head current : nat) : res (list node) :=
    do h1 <- shift_move (S (length h)) h head current;
    shift_disable (S (length h)) h1 head.

  (** l.110-117: the constructor. *)
  Definition ch_init : chained :=
    mkCh (repeat (mkNode None None 0) (Z.to_nat sample_size))
         (repeat 4294967294 (Z.to_nat sample_size)) 0 0.

  (** l.123-139: the first part of [add]. *)
  Definition add_head (s : chained) (e : A) (timestamp : Z) : res chained :=
    if counter s <? sample_size then
      do p <- slot (counter s);
      do h <- st (nodes s) p (mkNode None (Some e) timestamp);
      do nx <- successor (counter s) (calls s);
      do n <- wr (next s) (counter s) nx;
      Ok (mkCh h n (counter s) (S (calls s)))
    else
      let threshold := ddiv (dofZ sample_size) (dofZ (counter s)) in
      if dlt (rnd (calls s)) threshold then
        do index <- offset (S (calls s));
        do p <- slot index;
        do c <- ld (nodes s) p;
        do h <- st (nodes s) p (mkNode (nxt c) (Some e) timestamp);
        do h <- clear_chain (S (length h)) h (nxt c);
        do nx <- successor (counter s) (S (S (calls s)));
        do n <- wr (next s) index nx;
        Ok (mkCh h n (counter s) (S (S (S (calls s)))))
      else Ok (mkCh (nodes s) (next s) (counter s) (S (calls s))).

  (** l.141-146: the body of the loop over the chains. *)
  Definition add_chain (e : A) (timestamp i : Z) (s : chained) : res chained :=
    do nx <- rd (next s) i;
    if counter s =? nx then
      do p <- slot i;
      do h <- push_on_chain 5000 (nodes s) p e timestamp;
      do nx' <- successor (counter s) (calls s);
      do n <- wr (next s) i nx';
      Ok (mkCh h n (counter s) (S (calls s)))
    else Ok s.

  (** l.122-148: [add]. *)
  Definition add (s : chained) (e : A) (timestamp : Z) : res chained :=
    do s1 <- add_head s e timestamp;
    do s2 <- forZ (Z.to_nat sample_size) 0 (add_chain e timestamp) s1;
    Ok (mkCh (nodes s2) (next s2) (u32 (counter s2 + 1)) (calls s2)).

  (** l.153-162: [operator[]]. *)
  Definition get (s : chained) (i : Z) : res A :=
    do p <- slot i;
    do c <- ld (nodes s) p;
    match element c with Some e => Ok e | None => Undef Uninitialised end.

  (** l.173-179: the search for the first cell that is not obsolete; [None] when
      there is none. *)
  Fixpoint first_valid (fuel : nat) (h : list node) (current : nat) (timestamp : Z)
      : res (option nat) :=
    match fuel with
    | O => NoFuel
    | S f =>
        do c <- ld h current;
        if stamp c <? timestamp then
          match nxt c with
          | None => Ok None
          | Some p => first_valid f h p timestamp
          end
        else Ok (Some current)
    end.

  (** l.168-182: the body of the loop of [obsolete]. *)
  Definition obsolete_slot (timestamp i : Z) (h : list node) : res (list node) :=
    do head <- slot i;
    do o <- first_valid (S (length h)) h head timestamp;
    match o with
    | Some current => if Nat.eqb head current then Ok h else shift_chain h head current
    | None => Ok h
    end.

  (** l.167-183: [obsolete]. *)
  Definition obsolete (s : chained) (timestamp : Z) : res chained :=
    do h <- forZ (Z.to_nat sample_size) 0 (obsolete_slot timestamp) (nodes s);
    Ok (mkCh h (next s) (counter s) (calls s)).

  (** A history of calls. *)
  Inductive call : Type := Add (e : A) (timestamp : Z) | Obsolete (timestamp : Z).

  Definition do_call (s : chained) (c : call) : res chained :=
    match c with
    | Add e t => add s e t
    | Obsolete t => obsolete s t
    end.

  Fixpoint ch_run (s : chained) (l : list call) : res chained :=
    match l with
    | [] => Ok s
    | c :: t => do s1 <- do_call s c; ch_run s1 t
    end.
End Chained.
Arguments mkNode {A}.
Arguments nxt {A}.
Arguments element {A}.
Arguments stamp {A}.
Arguments mkCh {A}.
Arguments nodes {A}.
Arguments next {A}.
Arguments counter {A}.
Arguments calls {A}.
Arguments Add {A}.
Arguments Obsolete {A}.
