(** Model of applications/Preprocessor/lib/hpgem.cpp: the reader of structured meshes ([StructuredReader]) and the part
    of [HpgemReader] that selects it.

    The file is its list of characters; words and numbers are read as in Gmsh_model. Doubles are real numbers. size_t
    values are natural numbers: that the total number of coordinates is below 2^64 is assumed. The five vectors with one
    entry for every direction are one list of records. [None]: an assertion fails, a vector is read out of range, or an
    extraction from the file fails. *)
From Coq Require Import String Ascii List Arith Bool ZArith Reals.
From Verif Require Import Loop_model Gmsh_model.
Import ListNotations.

(** hpgem.cpp:235-243: the entries of numberOfElements, numberOfNodes, lowerLeft, size, isPeriodic for one direction *)
Record axis := Axis {
  numberOfElements : nat; numberOfNodes : nat; lowerLeft : R; size : R; isPeriodic : bool }.
Record reader := Reader { axes : list axis; hasTriangles : bool }.

Section Reader.
  Variable convert : text -> option R.

  (** [hpgemFile >> isPeriodic[i]] with std::boolalpha, for a whole word *)
  Definition readBool (s : stream) : option (bool * stream) :=
    r <- extract s;
    if same (fst r) (chars "true") then Some (true, snd r)
    else if same (fst r) (chars "false") then Some (false, snd r) else None.
  Definition readCount (s : stream) : option (nat * stream) :=
    r <- readSize s; Some (Z.to_nat (fst r), snd r).
  Definition readNumber (s : stream) : option (R * stream) :=
    r <- extract s; x <- convert (fst r); Some (x, snd r).
  (** [for (i = 0; i < dimension; ++i) hpgemFile >> v[i]] *)
  Fixpoint readMany {A} (read : stream -> option (A * stream)) (n : nat) (s : stream) : option (list A * stream) :=
    match n with
    | 0 => Some ([], s)
    | S n' => r <- read s; rs <- readMany read n' (snd r); Some (fst r :: fst rs, snd rs)
    end.
  (** hpgem.cpp:84-86, 101-103: size[i] -= lowerLeft[i]; the number of nodes *)
  Fixpoint assemble (ns : list nat) (ls us : list R) (ps : list bool) : list axis :=
    match ns, ls, us, ps with
    | n :: ns, l :: ls, u :: us, p :: ps =>
        Axis n (n + (if p then 0 else 1)) l (u - l)%R p :: assemble ns ls us ps
    | _, _, _, _ => []
    end.
  (** hpgem.cpp:57-104 the constructor *)
  Definition structuredReader (s : stream) : option reader :=
    v <- readSize s;
    _u <- must (fst v =? 1)%Z;
    d <- readCount (snd v);
    ns <- readMany readCount (fst d) (snd d);
    ls <- readMany readNumber (fst d) (snd ns);
    us <- readMany readNumber (fst d) (snd ls);
    w <- extract (snd us);
    t <- (if same (fst w) (chars "triangular") then Some true
          else _u <- must (same (fst w) (chars "rectangular")); Some false);
    ps <- readMany readBool (fst d) (snd w);
    Some (Reader (assemble (fst ns) (fst ls) (fst us) (fst ps)) t).

  (** hpgem.cpp:391-406; files of the type mesh are not modelled here *)
  Definition hpgemReader (t : text) : option reader :=
    w <- extract (Stream t false);
    _u <- must (same (fst w) (chars "structured"));
    structuredReader (snd w).
End Reader.

(** customIterator.h:226-330 a range made of a first value, an action and a number: the action has been called once for
    the first value, and is called again for every other value *)
Fixpoint produce {St A} (n : nat) (step : St -> option (A * St)) (s : St) : option (list A * St) :=
  match n with
  | 0 => Some ([], s)
  | S n' => r <- step s; rs <- produce n' step (snd r); Some (fst r :: fst rs, snd rs)
  end.

(** hpgem.cpp:138-141: nested loops over all directions, the first one innermost *)
Fixpoint advance (count : axis -> nat) (xs : list axis) (loop : list nat) : list nat :=
  match xs, loop with
  | x :: xs, l :: loop => if S l <? count x then S l :: loop else 0 :: advance count xs loop
  | _, _ => []
  end.
Definition total (count : axis -> nat) (xs : list axis) : nat := fold_left (fun a x => a * count x) xs 1.

(** hpgem.cpp:119-123 *)
Fixpoint place (xs : list axis) (loop : list nat) : list R :=
  match xs, loop with
  | x :: xs, l :: loop => (lowerLeft x + INR l * size x / INR (numberOfElements x))%R :: place xs loop
  | _, _ => []
  end.
(** hpgem.cpp:128-129: a copy in which entry i is moved *)
Fixpoint move (i : nat) (s : R) (c : list R) : list R :=
  match c, i with
  | [], _ => []
  | y :: c, 0 => (y + s)%R :: c
  | y :: c, S i => y :: move i s c
  end.
(** hpgem.cpp:124-134: the inner loop runs over the coordinates that were there before it *)
Fixpoint copies {A} (shift : nat -> axis -> A -> A) (i : nat) (xs : list axis) (loop : list nat) (cs : list A) : list A :=
  match xs, loop with
  | x :: xs, l :: loop =>
      copies shift (S i) xs loop
        (if (isPeriodic x && (l =? 0))%bool then cs ++ map (shift i x) cs else cs)
  | _, _ => cs
  end.
Definition shiftPlace (i : nat) (x : axis) (c : list R) : list R := move i (size x) c.

(** hpgem.cpp:106-145 [getNodeCoordinates]: the state of the action, and coordinateIDs; coordinateIDs[nodeIndex] gets one
    number for every coordinate of the node *)
Record walk := Walk { w_loop : list nat; w_node : nat; w_next : nat; w_ids : list (list nat) }.
Definition nodeStep (xs : list axis) (s : walk) : option (list (list R) * walk) :=
  let cs := copies shiftPlace 0 xs (w_loop s) [place xs (w_loop s)] in
  old <- nth_error (w_ids s) (w_node s);
  ids <- write (w_ids s) (w_node s) (old ++ seq (w_next s) (length cs));
  Some (cs, Walk (advance numberOfNodes xs (w_loop s)) (S (w_node s)) (w_next s + length cs) ids).
(** the coordinates of the nodes, and coordinateIDs *)
Definition getNodeCoordinates (r : reader) : option (list (list (list R)) * list (list nat)) :=
  let n := total numberOfNodes (axes r) in
  p <- produce (Nat.max 1 n) (nodeStep (axes r)) (Walk (map (fun _ => 0) (axes r)) 0 0 (repeat [] n));
  Some (fst p, w_ids (snd p)).

(** hpgem.cpp:149-169 multipliedNodeCounts *)
Fixpoint multiplied (m : nat) (xs : list axis) : list nat :=
  match xs with [] => [] | x :: xs => m :: multiplied (m * numberOfNodes x) xs end.
(** hpgem.cpp:171-181: the node numbers of the corners, before those past the last node are taken back *)
Fixpoint unwrapped (xs : list axis) (loop ms : list nat) (ids : list nat) : list nat :=
  match xs, loop, ms with
  | _ :: xs, l :: loop, m :: ms =>
      let moved := map (fun c => c + l * m) ids in
      unwrapped xs loop ms (moved ++ map (fun c => c + m) moved)
  | _, _, _ => ids
  end.
(** hpgem.cpp:183-197: corner [j]; the node, subIndex and numberOfPreviousPeriodicDimensions *)
Fixpoint wrap (j i : nat) (xs : list axis) (loop ms : list nat) (st : nat * nat * nat) : option (nat * nat * nat) :=
  match xs, loop, ms with
  | x :: xs, l :: loop, m :: ms =>
      let '(c, sub, previous) := st in
      st' <- (if (Nat.testbit j i && (S l =? numberOfNodes x))%bool
              then if c <? numberOfNodes x * m then None
                   else Some (c - numberOfNodes x * m, sub + 2 ^ previous, S previous)
              else Some (c, sub, previous));
      let '(c', sub', previous') := st' in
      wrap j (S i) xs loop ms
        (c', sub', if (isPeriodic x && ((l =? 0) && negb (Nat.testbit j i)))%bool then S previous' else previous')
  | _, _, _ => Some st
  end.
Definition lookup (table : list (list nat)) (c sub : nat) : option nat :=
  row <- nth_error table c; nth_error row sub.
(** hpgem.cpp:182-199 *)
Definition corners (xs : list axis) (table : list (list nat)) (loop : list nat) : option (list nat) :=
  let ms := multiplied 1 xs in
  let ids := unwrapped xs loop ms [0] in
  collect (length ids) (fun j =>
    c <- nth_error ids j;
    st <- wrap j 0 xs loop ms (c, 0, 0);
    lookup table (fst (fst st)) (snd (fst st))).

(** hpgem.cpp:152-164 *)
Definition rotate : list nat := [2; 0; 3; 1; 6; 4; 7; 5].
Definition cornersOfTriangles (xs : list axis) : list (list nat) :=
  match length xs with
  | 2 => [[0; 1; 2]; [1; 3; 2]]
  | 3 => [[1; 2; 4; 7]; [0; 1; 2; 4]; [1; 3; 2; 7]; [1; 4; 5; 7]; [2; 6; 4; 7]]
  | _ => []
  end.
Fixpoint mapM {A B} (f : A -> option B) (l : list A) : option (list B) :=
  match l with [] => Some [] | a :: l => b <- f a; bs <- mapM f l; Some (b :: bs) end.
Definition rotated (ts : list (list nat)) : option (list (list nat)) := mapM (mapM (nth_error rotate)) ts.
(** hpgem.cpp:215-231: the next cell; the triangles are turned *)
Fixpoint nextCell (xs : list axis) (loop : list nat) (ts : list (list nat)) : option (list nat * list (list nat)) :=
  match xs, loop with
  | x :: xs, l :: loop =>
      ts1 <- rotated ts;
      if S l <? numberOfElements x then Some (S l :: loop, ts1)
      else ts2 <- (if S l mod 2 =? 1 then rotated ts1 else Some ts1);
           r <- nextCell xs loop ts2; Some (0 :: fst r, snd r)
  | _, _ => Some ([], ts)
  end.
(** the state of the action of getElements *)
Record tiling := Tiling { t_loop : list nat; t_index : nat; t_corners : list (list nat) }.
(** hpgem.cpp:170-233 *)
Definition elementStep (r : reader) (table : list (list nat)) (s : tiling) : option (list nat * tiling) :=
  ids <- corners (axes r) table (t_loop s);
  e <- (if hasTriangles r
        then t <- nth_error (t_corners s) (t_index s);
             ids' <- mapM (nth_error ids) t;
             Some (ids', if S (t_index s) =? length (t_corners s) then 0 else S (t_index s))
        else Some (ids, t_index s));
  c <- (if snd e =? 0 then nextCell (axes r) (t_loop s) (t_corners s) else Some (t_loop s, t_corners s));
  Some (fst e, Tiling (fst c) (snd e) (snd c)).
(** hpgem.cpp:147-244 [getElements], after the nodes have been read: coordinate numbers; the zone of all is Main *)
Definition getElements (r : reader) (table : list (list nat)) : option (list (list nat * string)) :=
  let ts := cornersOfTriangles (axes r) in
  _u <- match length (axes r) with 2 | 3 => Some tt | _ => must (negb (hasTriangles r)) end;
  let n := total numberOfElements (axes r) * (if hasTriangles r then length ts else 1) in
  p <- produce (Nat.max 1 n) (elementStep r table) (Tiling (map (fun _ => 0) (axes r)) 0 ts);
  Some (map (fun e => (e, "Main"%string)) (fst p)).

(** MeshFactory.h:47-76 the order in which a mesh asks for nodes and elements *)
Definition readStructured (r : reader) : option (list (list (list R)) * list (list nat * string)) :=
  ns <- getNodeCoordinates r;
  es <- getElements r (snd ns);
  Some (fst ns, es).

(** hpgem.cpp:250-256 [getProcessorBindings]: every element on processor 0 *)
Definition getProcessorBindings (r : reader) : list nat := repeat 0 (total numberOfElements (axes r)).
