(** Model of the tables of pre-evaluated basis functions which a quadrature rule keeps
    (kernel/Integration/QuadratureRules/GaussQuadratureRule.{h,cpp}) and of the
    destructor listeners of kernel/FE/BasisFunctionSet.{h,cpp} that keep them valid.

    Basis function sets live at addresses, and an address may be used again after a set
    was deleted.  Quadrature rules and the maps from faces to elements are singletons in
    the code and are never destroyed here.  Failed assertions, logger(ERROR, ..) and
    accesses outside of a vector are [None].  Silencing the logger while a table is
    filled is not modelled.  The order of a set plays no role here. *)
From Coq Require Import List Arith Bool.
From Verif Require Import Loop_model.
Import ListNotations.

Section QuadCache.
(** basis functions, points of any dimension and the values which the functions have;
    a value is a number or a vector depending on the table it is in *)
Context {F P V : Type}.

(** the six tables for direct evaluation, and the same six for evaluation on a face;
    the C++ overloads eval (number and vector), evalGrad, evalCurl<3>, evalCurl<2>, evalDiv *)
Inductive table := Values | VectorValues | Grads | Curls | Curls2D | Divs.
Definition table_eqb (s t : table) : bool :=
  match s, t with
  | Values, Values | VectorValues, VectorValues | Grads, Grads
  | Curls, Curls | Curls2D, Curls2D | Divs, Divs => true
  | _, _ => false
  end.

(** what the function objects compute: BaseBasisFunction::eval, evalDeriv, evalCurl, evalDiv *)
Variable value : F -> table -> P -> V.

(** GaussQuadratureRule.h:115-133: dimension() and the points of a rule *)
Record rule := Rule { dimension : nat; points : list P }.
Variable rules : nat -> rule.

(** a map from a face to an element: an object at an address, or a ConcatenatedMapping
    which refers to two other maps (Mappings/ConcatenatedMapping.h:66-98) *)
Inductive face_map := Direct (address : nat) | Concatenated (first second : nat).
Variable transform1 : nat -> P -> P.   (* the face map at this address *)
Variable transform0 : nat -> P -> P.   (* the map of a face to itself at this address *)
Definition transform (m : face_map) (p : P) : P :=
  match m with Direct a => transform1 a p | Concatenated a b => transform1 b (transform0 a p) end.

(** GaussQuadratureRule.h:74-88 faceMapContainer::operator<, with the order of std::pair *)
Definition container_less (x y : face_map) : bool :=
  match x, y with
  | Direct _, Concatenated _ _ => true
  | Direct a, Direct b => a <? b
  | Concatenated a1 a2, Concatenated b1 b2 => (a1 <? b1) || (negb (b1 <? a1) && (a2 <? b2))
  | Concatenated _ _, Direct _ => false
  end.

(** std::map: keys are the same when neither is less than the other.  Kept as a list;
    the order in which a std::map keeps its entries is not visible here. *)
Section Map.
Context {K D : Type} (less : K -> K -> bool).
Definition same_key (x y : K) : bool := negb (less x y) && negb (less y x).
Definition at_ (m : list (K * D)) (k : K) : option D :=
  option_map snd (find (fun e => same_key (fst e) k) m).
Definition erase (m : list (K * D)) (k : K) : list (K * D) :=
  filter (fun e => negb (same_key (fst e) k)) m.
Definition assign (m : list (K * D)) (k : K) (d : D) : list (K * D) := (k, d) :: erase m k.
End Map.

Definition values := list (list V).   (* [quadrature point][basis function] *)
(** GaussQuadratureRule.h:237-276 the private members *)
Record tables := Tables {
  direct : table -> list (nat * values);
  face : table -> list (nat * list (face_map * values)) }.

Definition change {X} (f : table -> X) (t : table) (x : X) : table -> X :=
  fun s => if table_eqb s t then x else f s.

(** GaussQuadratureRule.h:140-153 unregisterBasisFunctionSet *)
Definition unregisterBasisFunctionSet (r : tables) (set : nat) : tables :=
  let er (f : table -> list (nat * values)) t := change f t (erase Nat.ltb (f t) set) in
  let erf (f : table -> list (nat * list (face_map * values))) t := change f t (erase Nat.ltb (f t) set) in
  Tables (er (er (er (er (er (er (direct r) Values) VectorValues) Grads) Curls) Curls2D) Divs)
         (erf (erf (erf (erf (erf (erf (face r) Values) VectorValues) Grads) Curls) Curls2D) Divs).

(** BasisFunctionSet.h:130-132: the functions and the listeners; every listener that is
    ever registered unregisters this set from a rule, so it is kept as that rule *)
Record set := Set_ { functions : list F; listeners : list nat }.

Record world := World { sets : nat -> option set; caches : nat -> tables }.

Definition update {X} (f : nat -> X) (a : nat) (x : X) : nat -> X := fun b => if b =? a then x else f b.

(** the loop over the listeners in BasisFunctionSet.cpp:55-57 and 67-69 *)
Definition call_listeners (l : list nat) (a : nat) (c : nat -> tables) : nat -> tables :=
  fold_left (fun c r => update c r (unregisterBasisFunctionSet (c r) a)) l c.

(** BasisFunctionSet.cpp:48 the constructor; [a] is the address given by operator new *)
Definition newSet (a : nat) (w : world) : option world :=
  match sets w a with
  | Some _ => None
  | None => Some (World (update (sets w) a (Some (Set_ [] []))) (caches w))
  end.
(** BasisFunctionSet.cpp:50-58 the destructor *)
Definition deleteSet (a : nat) (w : world) : option world :=
  match sets w a with
  | None => None
  | Some s => Some (World (update (sets w) a None) (call_listeners (listeners s) a (caches w)))
  end.
(** BasisFunctionSet.cpp:64-70 *)
Definition addBasisFunction (a : nat) (f : F) (w : world) : option world :=
  match sets w a with
  | None => None
  | Some s => Some (World (update (sets w) a (Some (Set_ (functions s ++ [f]) (listeners s))))
                          (call_listeners (listeners s) a (caches w)))
  end.
(** BasisFunctionSet.h:124-126 *)
Definition registerDestructorListener (s : set) (r : nat) : set := Set_ (functions s) (listeners s ++ [r]).

(** for which dimensions of the rule a direct table can be filled: the switch statements at
    GaussQuadratureRule.cpp:64-94, 204-237, 350-377 and GaussQuadratureRule.h:405-415, 444-454.
    The vector valued eval at GaussQuadratureRule.h:285-326 is a template in the dimension of
    the points and asserts that it is that of the rule; it is taken with that dimension here. *)
Definition direct_possible (t : table) (d : nat) : bool :=
  match t with
  | Values | Grads => (1 <=? d) && (d <=? 4)
  | VectorValues => true
  | Curls => d =? 3
  | Curls2D => d =? 2
  | Divs => (2 <=? d) && (d <=? 4)
  end.
(** GaussQuadratureRule.cpp:125-169, 278-322, 408-445 and GaussQuadratureRule.h:487-500, 534-547 *)
Definition face_possible (t : table) (d : nat) : bool :=
  match t with
  | Values | Grads => d <=? 3
  | VectorValues => true
  | Curls => d =? 2
  | Curls2D => d =? 1
  | Divs => (1 <=? d) && (d <=? 3)
  end.

(** the two nested loops which fill a table *)
Definition fill (possible : bool) (t : table) (fs : list F) (ps : list P) : option values :=
  collect (length ps) (fun i =>
    if possible then
      match nth_error ps i with
      | None => None
      | Some p => collect (length fs) (fun j => match nth_error fs j with None => None | Some f => Some (value f t p) end)
      end
    else None).

(** the entry [quadraturePointIndex][basisFunctionIndex] *)
Definition entry (v : values) (i j : nat) : option V :=
  match nth_error v i with None => None | Some row => nth_error row j end.

(** GaussQuadratureRule.cpp:44-99, 176-244, 330-382 and GaussQuadratureRule.h:284-326, 383-459:
    eval, evalGrad, evalDiv and evalCurl of rule [r] for the set at [a] *)
Definition eval (r : nat) (t : table) (a j i : nat) (w : world) : option (world * V) :=
  match sets w a with
  | None => None
  | Some s =>
      if (i <? length (points (rules r))) && (j <? length (functions s)) then
        match at_ Nat.ltb (direct (caches w r) t) a with
        | Some v => option_map (pair w) (entry v i j)
        | None =>
            match fill (direct_possible t (dimension (rules r))) t (functions s) (points (rules r)) with
            | None => None
            | Some v =>
                let c := caches w r in
                let c' := Tables (change (direct c) t (assign Nat.ltb (direct c t) a v)) (face c) in
                option_map (pair (World (update (sets w) a (Some (registerDestructorListener s r)))
                                        (update (caches w) r c')))
                           (entry v i j)
            end
        end
      else None
  end.

(** GaussQuadratureRule.cpp:101-174, 246-328, 384-450 and GaussQuadratureRule.h:328-381, 461-553:
    the same on a face.  at(set).at(containedMap) throws when either is missing;
    faces_[set] makes an empty inner map when there is none. *)
Definition evalFace (r : nat) (t : table) (a j i : nat) (m : face_map) (w : world) : option (world * V) :=
  match sets w a with
  | None => None
  | Some s =>
      if (i <? length (points (rules r))) && (j <? length (functions s)) then
        let c := caches w r in
        let inner := match at_ Nat.ltb (face c t) a with None => [] | Some n => n end in
        match at_ container_less inner m with
        | Some v => option_map (pair w) (entry v i j)
        | None =>
            match fill (face_possible t (dimension (rules r))) t (functions s) (map (transform m) (points (rules r))) with
            | None => None
            | Some v =>
                let c' := Tables (direct c) (change (face c) t (assign Nat.ltb (face c t) a (assign container_less inner m v))) in
                option_map (pair (World (update (sets w) a (Some (registerDestructorListener s r)))
                                        (update (caches w) r c')))
                           (entry v i j)
            end
        end
      else None
  end.

(** everything that can happen *)
Inductive op :=
| New (a : nat) | Delete (a : nat) | Add (a : nat) (f : F)
| Eval (r : nat) (t : table) (a j i : nat)
| EvalFace (r : nat) (t : table) (a j i : nat) (m : face_map).

Definition step (o : op) (w : world) : option (world * list V) :=
  match o with
  | New a => option_map (fun w => (w, [])) (newSet a w)
  | Delete a => option_map (fun w => (w, [])) (deleteSet a w)
  | Add a f => option_map (fun w => (w, [])) (addBasisFunction a f w)
  | Eval r t a j i => option_map (fun q => (fst q, [snd q])) (eval r t a j i w)
  | EvalFace r t a j i m => option_map (fun q => (fst q, [snd q])) (evalFace r t a j i m w)
  end.

(** a program: the values its evaluations return, or [None] when it fails somewhere *)
Fixpoint run (l : list op) (w : world) : option (list V) :=
  match l with
  | [] => Some []
  | o :: l => match step o w with None => None | Some (w', out) => option_map (app out) (run l w') end
  end.

Definition start : world := World (fun _ => None) (fun _ => Tables (fun _ => []) (fun _ => [])).
End QuadCache.
