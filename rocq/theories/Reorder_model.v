(** Model of applications/Preprocessor/lib/ElementReorder.{h,cpp}.

    A registry is the vector [orderPerElement_]; names are left out (they are
    only used for equality, which nothing calls).  [assert_always] failures and
    out-of-range vector accesses are [None]. *)
From Coq Require Import List Arith Bool.
From Verif Require Import Std_model.
Import ListNotations.

(** std::adjacent_difference (after sorting the differences are not negative,
    so [size_t] subtraction does not wrap). *)
Fixpoint adjacent_difference_from (prev : nat) (l : list nat) : list nat :=
  match l with [] => [] | x :: r => (x - prev) :: adjacent_difference_from x r end.
Definition adjacent_difference (l : list nat) : list nat :=
  match l with [] => [] | x :: r => x :: adjacent_difference_from x r end.

(** ElementReorder.cpp:101-110 [checkOrder].  [order[0]] of an empty vector is
    undefined behaviour, hence [None].  The accumulation is done in [int] in
    the code; sizes are far below 2^31. *)
Definition checkOrder (order : list nat) : option bool :=
  match adjacent_difference (sort order) with
  | [] => None
  | (x0 :: _) as d => Some ((x0 =? 0) && (list_sum d =? length d - 1))
  end.

(** ElementReorder.h:61-83, the struct [Element]. *)
Record elt := { e_dim : nat; e_order : list nat }.
Definition registry := list elt.

Definition matches (dim size : nat) (e : elt) : bool :=
  (e_dim e =? dim) && (length (e_order e) =? size).

(** ElementReorder.cpp:45-58 [FindElement] *)
Definition FindElement (r : registry) (dim size : nat) : option elt :=
  find (matches dim size) r.

(** ElementReorder.cpp:60-77 [addElementType] together with the constructor
    ElementReorder.h:63-67. *)
Definition addElementType (r : registry) (dim : nat) (order : list nat) : option registry :=
  match find (matches dim (length order)) r with
  | Some _ => None
  | None =>
      match checkOrder order with
      | Some true => Some (r ++ [{| e_dim := dim; e_order := order |}])
      | _ => None
      end
  end.

(** writing [v[i] = x]; [None] when out of range *)
Fixpoint set_nth {A} (v : list A) (i : nat) (x : A) : option (list A) :=
  match v, i with
  | [], _ => None
  | _ :: r, 0 => Some (x :: r)
  | y :: r, S i' => match set_nth r i' x with Some r' => Some (y :: r') | None => None end
  end.

(** ElementReorder.cpp:84-87, loop [indeces[i] = copy[e.order_[i]]] from [i] on *)
Fixpoint to_loop {A} (copy : list A) (order : list nat) (i n : nat) (ind : list A)
  : option (list A) :=
  match n with
  | 0 => Some ind
  | S n' =>
      match nth_error order i with
      | None => None
      | Some o =>
          match nth_error copy o with
          | None => None
          | Some x =>
              match set_nth ind i x with
              | None => None
              | Some ind' => to_loop copy order (S i) n' ind'
              end
          end
      end
  end.

(** ElementReorder.cpp:95-98, loop [indeces[e.order_[i]] = copy[i]] *)
Fixpoint from_loop {A} (copy : list A) (order : list nat) (i n : nat) (ind : list A)
  : option (list A) :=
  match n with
  | 0 => Some ind
  | S n' =>
      match nth_error order i with
      | None => None
      | Some o =>
          match nth_error copy i with
          | None => None
          | Some x =>
              match set_nth ind o x with
              | None => None
              | Some ind' => from_loop copy order (S i) n' ind'
              end
          end
      end
  end.

(** ElementReorder.cpp:79-88 *)
Definition reorderToHpGem {A} (r : registry) (dim : nat) (ind : list A) : option (list A) :=
  match FindElement r dim (length ind) with
  | None => None
  | Some e => to_loop ind (e_order e) 0 (length ind) ind
  end.

(** ElementReorder.cpp:90-99 *)
Definition reorderFromHpGem {A} (r : registry) (dim : nat) (ind : list A) : option (list A) :=
  match FindElement r dim (length ind) with
  | None => None
  | Some e => from_loop ind (e_order e) 0 (length ind) ind
  end.

(** A history of registrations starting from an empty registry. *)
Fixpoint register_all (r : registry) (l : list (nat * list nat)) : option registry :=
  match l with
  | [] => Some r
  | (d, o) :: l' =>
      match addElementType r d o with Some r' => register_all r' l' | None => None end
  end.

(** gmsh.cpp:310-330, the registrations made by the gmsh reader. *)
Definition gmsh_orders : list (nat * list nat) :=
  [(0, [0]); (1, [0; 1]); (1, [0; 2; 1]); (2, [0; 1; 2]); (2, [0; 3; 1; 5; 4; 2]);
   (2, [0; 1; 3; 2]); (3, [4; 1; 2; 0; 3]); (3, [4; 5; 0; 1; 7; 6; 3; 2]);
   (3, [0; 2; 1; 3; 5; 4]); (3, [0; 4; 1; 6; 5; 2; 7; 9; 8; 3])].

(** gmsh.cpp:113-233 [fillElementTypeMap], restricted to the first-order element
    types 1-7 and 15: (gmsh type, dimension, number of nodes). *)
Definition gmsh_linear_types : list (nat * nat * nat) :=
  [(1, 1, 2); (2, 2, 3); (3, 2, 4); (4, 3, 4); (5, 3, 8); (6, 3, 6); (7, 3, 5); (15, 0, 1)].
