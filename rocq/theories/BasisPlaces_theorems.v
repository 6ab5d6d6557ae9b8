(** C17, C18: basis functions of an element, degrees of freedom of a face. *)
From Coq Require Import List Arith Bool Lia.
From Verif Require Import BasisPlaces_model BasisPlaces_spec BasisPlaces_proofs.
Import ListNotations.

(** After any history of registrations and clearings, the number of functions of an
    unknown is the sum over the places of the sizes of the sets in use; every number
    below it designates exactly one place and index there, which is what
    getBasisFunctionSetAndIndex returns, with offset(place) + index = number; all
    other numbers are errors. *)
Theorem C18_number_designates_place_and_index : forall sz unknowns P h u i,
  within sz unknowns P h -> u < unknowns ->
  exists s total, ops sz (repeat [] unknowns) h = Some s /\
    getNumberOfBasisFunctions sz s u = Some total /\
    total = functions_before sz h u P /\
    (i < total -> exists place pos j,
       in_use h u place = Some pos /\ j < nth pos sz 0 /\
       functions_before sz h u place + j = i /\
       getBasisFunctionSetAndIndex sz s i u = Some (pos, j) /\
       getBasisFunctionOffset sz s u place = Some (i - j) /\
       forall place' pos' j', in_use h u place' = Some pos' -> j' < nth pos' sz 0 ->
         functions_before sz h u place' + j' = i -> place' = place /\ j' = j) /\
    (total <= i -> getBasisFunctionSetAndIndex sz s i u = None).
Proof. exact set_and_index. Qed.
Print Assumptions C18_number_designates_place_and_index.

(** The functions local to the element are those of place 0. *)
Theorem C18_local_functions : forall sz unknowns P h, within sz unknowns P h ->
  exists s, ops sz (repeat [] unknowns) h = Some s /\
    getTotalLocalNumberOfBasisFunctions sz s =
      Some (list_sum (map (fun u => functions_at sz h u 0) (seq 0 unknowns))) /\
    forall u, u < unknowns -> getNumberOfLocalBasisFunctions sz s u = Some (functions_at sz h u 0).
Proof. exact local_counts. Qed.
Print Assumptions C18_local_functions.

(** A call about another unknown changes nothing for this one.  Registering a set at
    a place keeps the numbers of all functions before that place, and every other
    place keeps its set. *)
Theorem C18_other_places_unaffected : forall sz unknowns P h o s s' u,
  within sz unknowns P (h ++ [o]) ->
  ops sz (repeat [] unknowns) h = Some s -> do_op sz s o = Some s' -> u < unknowns ->
  (about o <> u -> forall i place,
     getNumberOfBasisFunctions sz s' u = getNumberOfBasisFunctions sz s u /\
     getNumberOfLocalBasisFunctions sz s' u = getNumberOfLocalBasisFunctions sz s u /\
     getBasisFunctionOffset sz s' u place = getBasisFunctionOffset sz s u place /\
     getBasisFunctionSetAndIndex sz s' i u = getBasisFunctionSetAndIndex sz s i u) /\
  (forall place pos i, o = Register u place pos -> i < functions_before sz h u place ->
     getBasisFunctionSetAndIndex sz s' i u = getBasisFunctionSetAndIndex sz s i u) /\
  (forall place pos place' pos' j, o = Register u place pos -> place' <> place ->
     in_use h u place' = Some pos' -> j < nth pos' sz 0 ->
     exists off, getBasisFunctionOffset sz s' u place' = Some off /\
       getBasisFunctionSetAndIndex sz s' (off + j) u = Some (pos', j)).
Proof. exact history_frame. Qed.
Print Assumptions C18_other_places_unaffected.

(** After any history of set*BasisFunctionSet calls on an element, the number of
    basis functions kept for the solution vectors equals the number of functions in
    the sets, for every unknown. *)
Theorem C18_element_counts_current : forall sz nf ne nn unknowns h,
  Forall (legal_edit sz nf ne nn unknowns) h ->
  exists e, edits sz (new_element nf ne nn unknowns) h = Some e /\
    ops sz (repeat [] unknowns) (flat_map (element_ops nf ne) h) = Some (pos_ e) /\
    length (counts e) = unknowns /\
    forall u, u < unknowns ->
      count_of e u = getNumberOfBasisFunctions sz (pos_ e) u /\
      count_of e u = Some (functions_before sz (flat_map (element_ops nf ne) h) u (1 + nf + ne + nn)).
Proof. exact element_counts. Qed.
Print Assumptions C18_element_counts_current.

(** Face between two elements, discontinuous basis on the left (anything on the
    right): the numbering covers 0..n-1 without collisions, getSide and
    getElementBasisFunctionId invert it. *)
Theorem C17_internal_face_numbering : forall sz nf ne nn nf' ne' nn' unknowns hl hr l r,
  Forall (legal_edit sz nf ne nn unknowns) hl -> only_default hl ->
  Forall (legal_edit sz nf' ne' nn' unknowns) hr ->
  edits sz (new_element nf ne nn unknowns) hl = Some l ->
  edits sz (new_element nf' ne' nn' unknowns) hr = Some r ->
  let f := {| fleft := l; fright := Some r |} in
  (forall sd b u i, convertToSingleIndex sz f sd b u = Some i ->
     i < total_of l + total_of r /\ getSide f i = Some sd /\
     getElementBasisFunctionId f i = elementIndex (match sd with LEFT => l | RIGHT => r end) b u) /\
  (forall i, i < total_of l + total_of r ->
     exists sd b u, convertToSingleIndex sz f sd b u = Some i /\
       forall sd' b' u', convertToSingleIndex sz f sd' b' u' = Some i -> sd' = sd /\ b' = b /\ u' = u).
Proof. exact face_numbering. Qed.
Print Assumptions C17_internal_face_numbering.

(** Boundary face, any basis. *)
Theorem C17_boundary_face_numbering : forall sz l,
  let f := {| fleft := l; fright := None |} in
  (forall sd b u i, convertToSingleIndex sz f sd b u = Some i ->
     sd = LEFT /\ i < total_of l /\ getSide f i = Some LEFT /\ getElementBasisFunctionId f i = elementIndex l b u) /\
  (forall i, i < total_of l ->
     exists b u, convertToSingleIndex sz f LEFT b u = Some i /\
       forall b' u', convertToSingleIndex sz f LEFT b' u' = Some i -> b' = b /\ u' = u).
Proof. exact boundary_numbering. Qed.
Print Assumptions C17_boundary_face_numbering.

(** With a conforming basis on the left element the numbering collides: a function
    of the left element and one of the right element get the same number, and
    getSide answers LEFT for the right one. *)
Theorem C17_conforming_numbering_refuted :
  exists sz nf ne nn h l r, Forall (legal_edit sz nf ne nn 1) h /\
    edits sz (new_element nf ne nn 1) h = Some l /\ edits sz (new_element nf ne nn 1) h = Some r /\
    let f := {| fleft := l; fright := Some r |} in
    exists b b' i, convertToSingleIndex sz f LEFT b 0 = Some i /\
                   convertToSingleIndex sz f RIGHT b' 0 = Some i /\
                   getSide f i = Some LEFT.
Proof.
  exists [2; 1], 2, 0, 2, [SetDefault 0 0; SetVertex 1 0 0; SetVertex 1 1 0].
  eexists. eexists. split; [repeat constructor|]. split; [reflexivity|]. split; [reflexivity|].
  exists 2, 0, 2. repeat split.
Qed.
Print Assumptions C17_conforming_numbering_refuted.

Example C18_nonvacuous :
  let h := [Register 0 0 1; Register 0 4 2; Clear 1; Register 0 2 0; Register 1 3 1; Register 0 4 1] in
  within [3; 2; 5] 2 5 h /\
  exists s, ops [3; 2; 5] (repeat [] 2) h = Some s /\
    getNumberOfBasisFunctions [3; 2; 5] s 0 = Some 7 /\
    getBasisFunctionSetAndIndex [3; 2; 5] s 5 0 = Some (1, 0) /\
    getBasisFunctionSetAndIndex [3; 2; 5] s 4 0 = Some (0, 2).
Proof.
  split.
  - intros o H. simpl in H. decompose [or] H; subst; try contradiction; simpl; lia.
  - eexists. split; [reflexivity|]. repeat split.
Qed.

Example C17_nonvacuous :
  exists l r, edits [3; 2; 5] (new_element 4 0 4 2) [SetDefault 1 0; SetDefault 2 1] = Some l /\
    edits [3; 2; 5] (new_element 3 0 3 2) [SetDefault 0 0; SetDefault 1 1] = Some r /\
    convertToSingleIndex [3; 2; 5] {| fleft := l; fright := Some r |} RIGHT 1 1 = Some 11.
Proof. eexists. eexists. repeat split. Qed.
