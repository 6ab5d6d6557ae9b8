(** How VTK reads an unstructured grid, and what the output should contain. *)
From Coq Require Import List Arith NArith Bool Reals String Ascii.
From Verif Require Import RefGeometry_model VTKWriter_model Base64_spec.
Import ListNotations.
Local Open Scope list_scope.
Local Open Scope nat_scope.

(** ** Reading *)
(** the coordinates of a point *)
Definition read_point (coordinates : list R) (i : nat) : option (list R) :=
  match skipn (3 * i) coordinates with
  | x :: y :: z :: _ => Some [x; y; z]
  | _ => None
  end.
(** The cells: the k-th cell has the type types[k] and the points connectivity[offsets[k - 1]], ..., connectivity[offsets[k] - 1]. *)
Fixpoint read_cells (start : nat) (types offsets connectivity : list nat) (coordinates : list R)
  : list (nat * list (option (list R))) :=
  match types, offsets with
  | t :: types', o :: offsets' =>
      (t, map (read_point coordinates) (firstn (o - start) (skipn start connectivity))) ::
      read_cells o types' offsets' connectivity coordinates
  | _, _ => []
  end.
(** A data array with n components: one tuple for each point, as many as there are points.  [None] when the number of values
    does not fit. *)
Fixpoint read_tuples (n : nat) (points : nat) (values : list R) : option (list (list R)) :=
  match points with
  | O => match values with [] => Some [] | _ => None end
  | S points' =>
      if List.length values <? n then None
      else option_map (cons (firstn n values)) (read_tuples n points' (skipn n values))
  end.
(** the numbers in a binary array: four bytes with the size, then that many bytes *)
Definition value4 (b : list N) : N :=
  match b with [b0; b1; b2; b3] => b0 + 256 * b1 + 65536 * b2 + 16777216 * b3 | _ => 0 end%N.
Definition read_binary (text : list ascii) : option (list N) :=
  match rfc_decode (firstn 8 text), rfc_decode (skipn 8 text) with
  | Some header, Some content =>
      if N.of_nat (List.length content) =? value4 header then Some content else None
  | _, _ => None
  end%N.

(** ** Contents *)
(** a vector with zeros up to three entries, a tensor with the identity up to three rows and columns *)
Definition padded (v : list R) : list R := firstn 3 (v ++ [0; 0; 0]%R).
Definition padded_tensor (dim : nat) (m : nat -> nat -> R) : list R :=
  map (fun ij => if (fst ij <? dim) && (snd ij <? dim) then m (fst ij) (snd ij) else if fst ij =? snd ij then 1%R else 0%R)
    [(0, 0); (0, 1); (0, 2); (1, 0); (1, 1); (1, 2); (2, 0); (2, 1); (2, 2)].
(** the cell for an element *)
Definition cell_of (mapping : list (shape * vtkElement)) (e : element) : vtkElement :=
  match find (geometryType e) mapping with Some v => v | None => {| vtkId := 0; getPoints := [] |} end.
Definition has_cell (mapping : list (shape * vtkElement)) (e : element) : Prop := find (geometryType e) mapping <> None.
(** all points of all cells: the elements with the points on them *)
Definition all_points (mapping : list (shape * vtkElement)) (elements : list element) : list (element * point) :=
  flat_map (fun e => map (fun p => (e, p)) (getPoints (cell_of mapping e))) elements.
(** the largest value of a std::uint32_t is 2^32 - 1 *)
Definition fits (n : nat) : Prop := (N.of_nat n < 4294967296)%N.
