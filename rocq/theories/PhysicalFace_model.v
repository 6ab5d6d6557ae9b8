(** Model of kernel/Base/PhysicalFace{.h,_Impl.h}: a face together with a point on it, with
    the physical elements on both sides of it (PhysicalElement_model) and caches for
    everything that was already computed at that point.

    The types and conventions are those of PhysicalElement_model: [V] stands for numbers and
    vectors, points on the face and in the elements both have type [P], [None] is a failed
    assertion, an access outside of a vector, a null or an uninitialised pointer.
    The mesh does not change.
    Left out: the result matrices and vectors, PhysicalFace.h:274-288; the products of the
    solution and the normal, which do not compile or only report an error,
    PhysicalFace_Impl.h:612-648; basisFunctionNormalCross and basisFunctionUnitNormalCross
    with a side, which do not compile, PhysicalFace_Impl.h:425-451, 533-558; getSolutionCurl
    and getSolutionDiv, which only report an error; the direct access to the physical
    elements, PhysicalFace.h:326-346. *)
From Coq Require Import List Arith Bool.
From Verif Require Import Loop_model ElementData_model PhysicalElement_model.
Import ListNotations.

(** kernel/Base/Face.h Side *)
Inductive side := LeftSide | RightSide.
(** basisFunctionNormal, basisFunctionUnitNormal, basisFunctionNormalCross,
    basisFunctionUnitNormalCross and the caches for them *)
Inductive normalKind := Normal | UnitNormal | NormalCross | UnitNormalCross.
Definition normalKind_eqb (k l : normalKind) : bool :=
  match k, l with
  | Normal, Normal | UnitNormal, UnitNormal | NormalCross, NormalCross | UnitNormalCross, UnitNormalCross => true
  | _, _ => false
  end.
Definition at_normal {X} (f : normalKind -> X) (k : normalKind) (x : X) : normalKind -> X :=
  fun l => if normalKind_eqb l k then x else f l.

Section PhysicalFace.
Context {A V P X J D Q M : Type}.
Variable zero : A.
Variable mul : A -> A -> A.
Variable vzero : V.
Variable vadd : V -> V -> V.
Variable vscale : A -> V -> V.
Variable transposed inverse : J -> J.
Variable determinant : J -> D.
Variable absolute : D -> D.
Variable getPoint : Q -> nat -> option P.
Variable mapPoint : M -> P -> P.
Variable l2Norm : V -> V.                       (* SmallVector::l2Norm *)
Variable divide : V -> V -> V.                  (* SmallVector::operator/ *)
Variable negate : V -> V.                       (* operator*= with -1 *)
(** the product of the normal vector and a basis function: scalar times vector, or the
    cross product of PhysicalFace_Impl.h:381-384 and 465-482 *)
Variable product : normalKind -> V -> V -> V.

Notation element := (@element A V P X J Q M).
Notation pstate := (@PhysicalElement_model.state A V P X J D Q M).
Notation transformation := (@transformation V J D).
Notation memory := (@memory A V P X J Q M).

(** kernel/Base/Face.h: the parts of a face that are used.  The elements are numbers in the
    memory; a face on the boundary has no right element (isInternal()).
    [leftRightTransform] is the result of updateLeftRightTransform, PhysicalFace_Impl.h:1077-1162,
    which depends on the face alone: [None] when it fails, [Some None] when no transformation
    is required, and otherwise the matrix. *)
Record face := Face {
  ptrElementLeft : nat;
  ptrElementRight : option nat;
  refFaceToRefElemMapL : M;
  refFaceToRefElemMapR : M;
  normalVector : P -> V;
  leftRightTransform : option (option J) }.
Definition isInternal (f : face) : bool := match ptrElementRight f with Some _ => true | None => false end.

(** PhysicalFace.h:384-460 the data members.  A value with a flag is an option: [None] when
    the flag is false, as the value is overwritten before the flag is set. *)
Record fstate := FState {
  left : pstate; right : pstate;
  isInternal_ : bool;
  fpointReference_ : option P;                  (* None: hasPointReference is false *)
  face_ : option face;                          (* None: hasFace is false *)
  ftransform_ : list (option transformation);
  nLeftBasisFunctions : list nat;
  normals : normalKind -> list (list V);        (* basisFunctionNormal_, .. *)
  hasNormals : normalKind -> list bool;         (* hasBasisFunctionNormal, .. *)
  lazies : kind -> list (option (list V));      (* basisFunctionDeriv_, .., see Lazy_model *)
  normal : option V; unitNormal : option V; normalNorm : option V;
  rightVectorTransform : option J;              (* None: requiresTransformation is false *)
  fquadratureRule_ : option Q;
  mapToLeftElement : option M; mapToRightElement : option M }.

Definition with_left (s : fstate) (l : pstate) : fstate :=
  FState l (right s) (isInternal_ s) (fpointReference_ s) (face_ s) (ftransform_ s) (nLeftBasisFunctions s) (normals s) (hasNormals s)
    (lazies s) (normal s) (unitNormal s) (normalNorm s) (rightVectorTransform s) (fquadratureRule_ s) (mapToLeftElement s) (mapToRightElement s).
Definition with_right (s : fstate) (r : pstate) : fstate :=
  FState (left s) r (isInternal_ s) (fpointReference_ s) (face_ s) (ftransform_ s) (nLeftBasisFunctions s) (normals s) (hasNormals s)
    (lazies s) (normal s) (unitNormal s) (normalNorm s) (rightVectorTransform s) (fquadratureRule_ s) (mapToLeftElement s) (mapToRightElement s).
Definition with_normal (s : fstate) (n u a : option V) : fstate :=
  FState (left s) (right s) (isInternal_ s) (fpointReference_ s) (face_ s) (ftransform_ s) (nLeftBasisFunctions s) (normals s) (hasNormals s)
    (lazies s) n u a (rightVectorTransform s) (fquadratureRule_ s) (mapToLeftElement s) (mapToRightElement s).
Definition with_normals (s : fstate) (v : normalKind -> list (list V)) (h : normalKind -> list bool) : fstate :=
  FState (left s) (right s) (isInternal_ s) (fpointReference_ s) (face_ s) (ftransform_ s) (nLeftBasisFunctions s) v h
    (lazies s) (normal s) (unitNormal s) (normalNorm s) (rightVectorTransform s) (fquadratureRule_ s) (mapToLeftElement s) (mapToRightElement s).
Definition with_lazies (s : fstate) (l : kind -> list (option (list V))) : fstate :=
  FState (left s) (right s) (isInternal_ s) (fpointReference_ s) (face_ s) (ftransform_ s) (nLeftBasisFunctions s) (normals s) (hasNormals s)
    l (normal s) (unitNormal s) (normalNorm s) (rightVectorTransform s) (fquadratureRule_ s) (mapToLeftElement s) (mapToRightElement s).

Section Face.
Variable elements : memory.

(** assert_debug(hasPointReference && hasFace, ..) *)
Definition located (s : fstate) : option (face * P) := f <- face_ s; p <- fpointReference_ s; Some (f, p).

(** the overloads with and without a number of the unknown *)
Definition index (uo : option nat) : nat := match uo with Some u => u | None => 0 end.
Definition elementFunction (uo : option nat) (k : kind) (i : nat) (s : pstate) : option (pstate * V) :=
  match uo with
  | Some u => basisFunctionOf transposed determinant elements k i u s
  | None => basisFunction transposed determinant elements k i s
  end.

(** Face.cpp:170-185 getNumberOfBasisFunctions *)
Definition elementNumber (uo : option nat) (e : element) : option nat :=
  match uo with Some u => nth_error (nb (edata e)) u | None => sharedNumber e end.
Definition getNumberOfBasisFunctions (uo : option nat) (f : face) : option nat :=
  e <- elements (ptrElementLeft f);
  n <- elementNumber uo e;
  match ptrElementRight f with
  | None => Some n
  | Some r => e' <- elements r; n' <- elementNumber uo e'; Some (n + n')
  end.

(** a transformation working with rightVectorTransform (ValueCoordinateTransformationData,
    CoordinateTransformationData.h) *)
Fixpoint perform_with (j : J) (r : @request V J D) : option V :=
  match r with
  | Answer v => Some v
  | Error => None
  | AskJacobian f => perform_with j (f j)
  | AskTranspose f => perform_with j (f (transposed j))
  | AskDet f => perform_with j (f (determinant j))
  end.
(** "if (requiresTransformation) value = transform_[unknown]->transform(value, rightVectorTransform)" *)
Definition carried (s : fstate) (k : kind) (u : nat) (v : V) : option V :=
  match rightVectorTransform s with
  | None => Some v
  | Some j => t <- nth_error (ftransform_ s) u; t <- t; perform_with j (t k v)
  end.
Definition rightFunction (uo : option nat) (k : kind) (i : nat) (s : fstate) : option (fstate * V) :=
  q <- elementFunction uo k i (right s);
  v <- carried s k (index uo) (snd q);
  Some (with_right s (fst q), v).
Definition leftFunction (uo : option nat) (k : kind) (i : nat) (s : fstate) : option (fstate * V) :=
  q <- elementFunction uo k i (left s); Some (with_left s (fst q), snd q).

(** PhysicalFace_Impl.h:45-75, 266-298: values of functions, numbered over both sides *)
Definition faceFunction (uo : option nat) (k : kind) (i : nat) (s : fstate) : option (fstate * V) :=
  _ <- located s;
  n <- nth_error (nLeftBasisFunctions s) (index uo);
  if i <? n then leftFunction uo k i s
  else if isInternal_ s then rightFunction uo k (i - n) s
  else None.
(** PhysicalFace_Impl.h:77-108, 300-334: values of functions, numbered per side *)
Definition sideFunction (d : side) (uo : option nat) (k : kind) (i : nat) (s : fstate) : option (fstate * V) :=
  _ <- located s;
  match d with
  | LeftSide => leftFunction uo k i s
  | RightSide => if isInternal_ s then rightFunction uo k i s else None
  end.

(** PhysicalFace_Impl.h:1016-1075 computeBasisFunctionDeriv, .., Curl, .., Div; values[i] is
    written after values.resize, here it is appended *)
Definition computeAll (k : kind) (u : nat) (s : fstate) : option (fstate * list V) :=
  f <- face_ s;
  n <- getNumberOfBasisFunctions (Some u) f;
  nLeft <- nth_error (nLeftBasisFunctions s) u;
  for_loop n (fun i q =>
    r <- (if i <? nLeft then leftFunction (Some u) k i (fst q) else rightFunction (Some u) k (i - nLeft) (fst q));
    Some (fst r, snd q ++ [snd r])) (s, []).
(** PhysicalFace_Impl.h:110-114, 336-340, 352-356, LazyCached.h:150-160 *)
Definition lazyFunction (u : nat) (k : kind) (i : nat) (s : fstate) : option (fstate * V) :=
  entry <- nth_error (lazies s k) u;
  match entry with
  | Some l => v <- nth_error l i; Some (s, v)
  | None =>
      q <- computeAll k u s;
      let s := fst q in
      l <- write (lazies s k) u (Some (snd q));
      v <- nth_error (snd q) i;
      Some (with_lazies s (at_kind (lazies s) k l), v)
  end.
(** PhysicalFace_Impl.h:116-124, 342-350, 358-366 *)
Definition lazySideFunction (d : side) (u : nat) (k : kind) (i : nat) (s : fstate) : option (fstate * V) :=
  match d with
  | LeftSide => lazyFunction u k i s
  | RightSide => n <- nth_error (nLeftBasisFunctions s) u; lazyFunction u k (i + n) s
  end.

(** PhysicalFace_Impl.h:666-677 *)
Definition getNormalVector (s : fstate) : option (fstate * V) :=
  fp <- located s;
  match normal s with
  | Some v => Some (s, v)
  | None => let v := normalVector (fst fp) (snd fp) in Some (with_normal s (Some v) (unitNormal s) (normalNorm s), v)
  end.
(** PhysicalFace_Impl.h:692-702 *)
Definition getRelativeSurfaceArea (s : fstate) : option (fstate * V) :=
  _ <- located s;
  match normalNorm s with
  | Some v => Some (s, v)
  | None =>
      q <- getNormalVector s;
      let s := fst q in let v := l2Norm (snd q) in
      Some (with_normal s (normal s) (unitNormal s) (Some v), v)
  end.
(** PhysicalFace_Impl.h:679-690 *)
Definition getUnitNormalVector (s : fstate) : option (fstate * V) :=
  _ <- located s;
  match unitNormal s with
  | Some v => Some (s, v)
  | None =>
      q <- getNormalVector s;
      r <- getRelativeSurfaceArea (fst q);
      let s := fst r in let v := divide (snd q) (snd r) in
      Some (with_normal s (normal s) (Some v) (normalNorm s), v)
  end.

Definition normal_of (nk : normalKind) (s : fstate) : option (fstate * V) :=
  match nk with Normal | NormalCross => getNormalVector s | UnitNormal | UnitNormalCross => getUnitNormalVector s end.
Definition kind_of (nk : normalKind) : kind :=
  match nk with Normal | UnitNormal => Value | NormalCross | UnitNormalCross => VectorValue end.
(** basisFunctionNormal and basisFunctionUnitNormal call basisFunction(j) also when there is a
    number of the unknown, PhysicalFace_Impl.h:160, 231-232; the cross products call
    basisFunction(j, result, unknown), lines 412, 506 *)
Definition overload (nk : normalKind) (uo : option nat) : option nat :=
  match nk with Normal | UnitNormal => None | NormalCross | UnitNormalCross => uo end.

(** PhysicalFace_Impl.h:126-165, 194-237, 368-423, 453-531 *)
Definition normalFunction (nk : normalKind) (uo : option nat) (i : nat) (s : fstate) : option (fstate * V) :=
  fp <- located s;
  e <- elements (ptrElementLeft (fst fp));
  if match uo with Some u => u <? unknowns e | None => true end then
    let u := index uo in
    h <- nth_error (hasNormals s nk) u;
    if h : bool then v <- get2 (normals s nk) u i; Some (s, v)
    else
      h <- write (hasNormals s nk) u true;
      let s := with_normals s (normals s) (at_normal (hasNormals s) nk h) in
      n <- getNumberOfBasisFunctions uo (fst fp);
      s <- for_loop n (fun j s =>
        q <- normal_of nk s;
        r <- faceFunction (overload nk uo) (kind_of nk) j (fst q);
        let s := fst r in
        nLeft <- nth_error (nLeftBasisFunctions s) u;
        let v := product nk (snd q) (snd r) in
        l <- set2 (normals s nk) u j (if nLeft <=? j then negate v else v);
        Some (with_normals s (at_normal (normals s) nk l) (hasNormals s))) s;
      v <- get2 (normals s nk) u i; Some (s, v)
  else None.
(** PhysicalFace_Impl.h:167-192, 239-264 *)
Definition normalSideFunction (d : side) (nk : normalKind) (uo : option nat) (i : nat) (s : fstate) : option (fstate * V) :=
  _ <- located s;
  match d with
  | LeftSide => normalFunction nk uo i s
  | RightSide =>
      if isInternal_ s then n <- nth_error (nLeftBasisFunctions s) (index uo); normalFunction nk uo (i + n) s else None
  end.

(** PhysicalFace_Impl.h:560-571, 586-597: getSolution and getSolutionDeriv *)
Definition sideSolution (d : side) (derivative : bool) (s : fstate) : option (fstate * list V) :=
  let solution := if derivative then getSolutionDeriv vzero vadd vscale transposed determinant elements
                  else getSolution vzero vadd vscale transposed determinant elements in
  _ <- located s;
  match d with
  | LeftSide => q <- solution (left s); Some (with_left s (fst q), snd q)
  | RightSide => if isInternal_ s then q <- solution (right s); Some (with_right s (fst q), snd q) else None
  end.

(** PhysicalFace_Impl.h:650-664 *)
Definition fgetPointPhysical (s : fstate) : option (fstate * X) :=
  _ <- located s; q <- getPointPhysical elements (left s); Some (with_left s (fst q), snd q).

(** what setPointReference, PhysicalFace_Impl.h:808-824, and setFace, lines 900-915, forget *)
Definition forget (n : nat) (s : fstate) : fstate :=
  with_normal (with_lazies (with_normals s (normals s) (fun _ => repeat false n)) (fun _ => repeat None n)) None None None.

(** PhysicalFace_Impl.h:797-840 setPointReference.  The number of unknowns is read from face_,
    which is not initialised before setFace. *)
Definition fsetPointReference (p : P) (s : fstate) : option fstate :=
  f <- face_ s;
  l <- setPointReference zero mul elements (mapPoint (refFaceToRefElemMapL f) p) (left s);
  r <- (if isInternal_ s then setPointReference zero mul elements (mapPoint (refFaceToRefElemMapR f) p) (right s) else Some (right s));
  e <- elements (ptrElementLeft f);
  Some (forget (unknowns e)
    (FState l r (isInternal_ s) (Some p) (face_ s) (ftransform_ s) (nLeftBasisFunctions s) (normals s) (hasNormals s)
      (lazies s) (normal s) (unitNormal s) (normalNorm s) (rightVectorTransform s) (fquadratureRule_ s) (mapToLeftElement s) (mapToRightElement s))).

(** PhysicalFace_Impl.h:848-886: the sizes, set when the first face is set.  The numbers of all
    functions for each unknown; the loop over the unknowns of the right element accesses the
    vectors that have an entry for each unknown of the left element. *)
Definition rowSizes (f : face) : option (list nat) :=
  e <- elements (ptrElementLeft f);
  match ptrElementRight f with
  | None => Some (nb (edata e))
  | Some r =>
      e' <- elements r;
      if unknowns e' <=? unknowns e
      then Some (map (fun nn => fst nn + snd nn) (combine (nb (edata e)) (vresize (nb (edata e')) (unknowns e) 0)))
      else None
  end.
(** PhysicalFace_Impl.h:842-932 setFace *)
Definition setFace (f : face) (s : fstate) : option fstate :=
  if Bool.eqb (isInternal_ s) (isInternal f) then
    e <- elements (ptrElementLeft f);
    sizes <- (match face_ s with
              | Some _ => Some (nLeftBasisFunctions s, normals s)
              | None => rows <- rowSizes f; Some (nb (edata e), fun _ => map (repeat vzero) rows)
              end);
    l <- setElement zero mul vzero elements (ptrElementLeft f) (left s);
    r <- (match ptrElementRight f with Some b => setElement zero mul vzero elements b (right s) | None => Some (right s) end);
    l <- (match fpointReference_ s with
          | Some p => setPointReference zero mul elements (mapPoint (refFaceToRefElemMapL f) p) l
          | None => Some l
          end);
    r <- (match fpointReference_ s with
          | Some p => if isInternal_ s then setPointReference zero mul elements (mapPoint (refFaceToRefElemMapR f) p) r else Some r
          | None => Some r
          end);
    t <- leftRightTransform f;
    Some (forget (unknowns e)
      (FState l r (isInternal_ s) (fpointReference_ s) (Some f) (ftransform_ s) (fst sizes) (snd sizes) (hasNormals s)
        (lazies s) (normal s) (unitNormal s) (normalNorm s) t (fquadratureRule_ s) (mapToLeftElement s) (mapToRightElement s)))
  else None.

(** PhysicalFace_Impl.h:934-980 setTransform *)
Definition setTransform (t : transformation) (u : nat) (s : fstate) : option fstate :=
  ts <- (if length (ftransform_ s) <=? u
         then match face_ s with
              | Some _ => None
              | None => write (vresize (ftransform_ s) (S u) None) u (Some t)
              end
         else write (ftransform_ s) u (Some t));
  l <- setTransformation zero mul t u (left s);
  r <- (if isInternal_ s then setTransformation zero mul t u (right s) else Some (right s));
  Some (FState l r (isInternal_ s) (fpointReference_ s) (face_ s) ts (nLeftBasisFunctions s) (normals s)
    (fun nk => repeat false (length (hasNormals s nk))) (fun _ => repeat None (length (lazies s Deriv)))
    (normal s) (unitNormal s) (normalNorm s) (rightVectorTransform s) (fquadratureRule_ s) (mapToLeftElement s) (mapToRightElement s)).

(** PhysicalFace_Impl.h:995-1007 setQuadraturePointIndex *)
Definition fsetQuadraturePointIndex (i : nat) (s : fstate) : option fstate :=
  q <- fquadratureRule_ s;
  p <- getPoint q i;
  s <- fsetPointReference p s;
  m <- mapToLeftElement s;
  l <- setFaceQuadratureRule zero mul getPoint mapPoint elements q m (left s);
  l <- setQuadraturePointIndex zero mul getPoint mapPoint elements i l;
  let s := with_left s l in
  if isInternal_ s then
    m <- mapToRightElement s;
    r <- setFaceQuadratureRule zero mul getPoint mapPoint elements q m (right s);
    r <- setQuadraturePointIndex zero mul getPoint mapPoint elements i r;
    Some (with_right s r)
  else Some s.
(** PhysicalFace_Impl.h:982-993 setQuadratureRule *)
Definition fsetQuadratureRule (q : Q) (s : fstate) : option fstate :=
  f <- face_ s;
  l <- setFaceQuadratureRule zero mul getPoint mapPoint elements q (refFaceToRefElemMapL f) (left s);
  r <- (if isInternal_ s then setFaceQuadratureRule zero mul getPoint mapPoint elements q (refFaceToRefElemMapR f) (right s) else Some (right s));
  fsetQuadraturePointIndex 0
    (FState l r (isInternal_ s) (fpointReference_ s) (face_ s) (ftransform_ s) (nLeftBasisFunctions s) (normals s) (hasNormals s)
      (lazies s) (normal s) (unitNormal s) (normalNorm s) (rightVectorTransform s) (Some q) (Some (refFaceToRefElemMapL f))
      (if isInternal_ s then Some (refFaceToRefElemMapR f) else mapToRightElement s)).
End Face.

(** PhysicalFace.h:66-88 the constructor; [h1] is the H1ConformingTransformation *)
Definition newPhysicalFace (h1 : transformation) (forInternalFace : bool) : fstate :=
  FState (newPhysicalElement h1) (newPhysicalElement h1) forInternalFace None None [Some h1] [] (fun _ => []) (fun _ => []) (fun _ => [])
    None None None None None None None.

(** the calls *)
Inductive fsetter :=
| SetFace (f : face) | FSetPointReference (p : P) | SetTransform (t : transformation) (u : nat)
| FSetQuadratureRule (q : Q) | FSetQuadraturePointIndex (i : nat).
Inductive fgetter :=
| FaceFunction (uo : option nat) (k : kind) (i : nat)
| SideFunction (d : side) (uo : option nat) (k : kind) (i : nat)
| NormalFunction (nk : normalKind) (uo : option nat) (i : nat)
| NormalSideFunction (d : side) (nk : normalKind) (uo : option nat) (i : nat)
| SideSolution (d : side) (derivative : bool)
| FPointReference | FPointPhysical | NormalVector | UnitNormalVector | RelativeSurfaceArea.
Inductive fanswer := FValue (v : V) | FSolution (l : list V) | FPoint (p : P) | FPhysical (x : X).

Definition fset (elements : memory) (o : fsetter) (s : fstate) : option fstate :=
  match o with
  | SetFace f => setFace elements f s
  | FSetPointReference p => fsetPointReference elements p s
  | SetTransform t u => setTransform t u s
  | FSetQuadratureRule q => fsetQuadratureRule elements q s
  | FSetQuadraturePointIndex i => fsetQuadraturePointIndex elements i s
  end.
Definition fanswered {Y} (f : Y -> fanswer) (o : option (fstate * Y)) : option (fstate * fanswer) :=
  option_map (fun q => (fst q, f (snd q))) o.
Definition fget (elements : memory) (g : fgetter) (s : fstate) : option (fstate * fanswer) :=
  match g with
  | FaceFunction uo k i =>
      fanswered FValue match k with
                       | Value | VectorValue => faceFunction elements uo k i s
                       | Deriv | Curl | Div => lazyFunction elements (index uo) k i s
                       end
  | SideFunction d uo k i =>
      fanswered FValue match k with
                       | Value | VectorValue => sideFunction elements d uo k i s
                       | Deriv | Curl | Div => lazySideFunction elements d (index uo) k i s
                       end
  | NormalFunction nk uo i => fanswered FValue (normalFunction elements nk uo i s)
  | NormalSideFunction d nk uo i =>
      match nk with
      | Normal | UnitNormal => fanswered FValue (normalSideFunction elements d nk uo i s)
      | NormalCross | UnitNormalCross => None
      end
  | SideSolution d derivative => fanswered FSolution (sideSolution elements d derivative s)
  | FPointReference => fanswered FPoint (option_map (pair s) (fpointReference_ s))
  | FPointPhysical => fanswered FPhysical (fgetPointPhysical elements s)
  | NormalVector => fanswered FValue (getNormalVector s)
  | UnitNormalVector => fanswered FValue (getUnitNormalVector s)
  | RelativeSurfaceArea => fanswered FValue (getRelativeSurfaceArea s)
  end.

Inductive fevent := FSet_ (o : fsetter) | FGet_ (g : fgetter).
Definition fstep (elements : memory) (o : fevent) (s : fstate) : option fstate :=
  match o with
  | FSet_ o => fset elements o s
  | FGet_ g => q <- fget elements g s; Some (fst q)
  end.
Fixpoint frun (elements : memory) (l : list fevent) (s : fstate) : option fstate :=
  match l with [] => Some s | o :: l => s <- fstep elements o s; frun elements l s end.
End PhysicalFace.
