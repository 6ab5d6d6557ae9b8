(** Model of kernel/Base/ElementData.{h,cpp}: expansion coefficients, element matrices
    and element vectors of one element.

    The number of unknowns is the length of [nb] and the number of time levels the
    length of [tl]: the constructor gives the vectors these lengths and nothing
    changes them.  Failed debug assertions and accesses outside of a vector are
    [None].  Zone, user data and logging are not modelled. *)
From Coq Require Import List Arith Bool.
From Verif Require Import Loop_model Matrix_model.
Import ListNotations.

Section ElementData.
Context {A : Type} (zero : A).

Record ElementData := ED {
  nb : list nat;               (* numberOfBasisFunctions_ *)
  tl : list (list A);          (* timeLevelDataVectors_ *)
  ti : list (list A);          (* timeIntegrationVectors_ *)
  elementMatrix_ : list (matrix A);
  elementVector_ : list (list A) }.

(** ElementData.cpp:50-68: constructor; the numbers of basis functions are set by the
    element afterwards, here they are passed *)
Definition ed_new (timeLevels : nat) (counts : list nat) (nMatrices nVectors : nat) : ElementData :=
  ED counts (repeat [] timeLevels) [] (repeat (Mat 0 0 []) nMatrices) (repeat [] nVectors).

(** ElementData.cpp:183-189 getTotalNumberOfBasisFunctions *)
Definition total (D : ElementData) : nat := fold_left (fun number index => number + index) (nb D) 0.

(** ElementData.cpp:176-181 getNumberOfBasisFunctions(unknown) *)
Definition getNumberOfBasisFunctions (D : ElementData) (unknown : nat) : option nat := nth_error (nb D) unknown.

(** ElementData.h:209-224 convertToSingleIndex *)
Definition convertToSingleIndex (D : ElementData) (iBasisFunction iVar : nat) : option nat :=
  match getNumberOfBasisFunctions D iVar with
  | None => None
  | Some n =>
      if iBasisFunction <? n then
        match for_loop iVar (fun i offset => option_map (Nat.add offset) (nth_error (nb D) i)) 0 with
        | None => None
        | Some offset => Some (offset + iBasisFunction)
        end
      else None
  end.

(** "if (v.size() != total) v.resize(total)", which occurs in every setter *)
Definition fit (D : ElementData) (v : list A) : list A :=
  if length v =? total D then v else vresize v (total D) zero.

(** change the vector with number [t] in a list of vectors *)
Definition change (l : list (list A)) (t : nat) (f : list A -> option (list A)) : option (list (list A)) :=
  match nth_error l t with
  | None => None
  | Some v => match f v with None => None | Some v' => write l t v' end
  end.
Definition with_tl (D : ElementData) (l : option (list (list A))) : option ElementData :=
  option_map (fun l => ED (nb D) l (ti D) (elementMatrix_ D) (elementVector_ D)) l.
Definition with_ti (D : ElementData) (l : option (list (list A))) : option ElementData :=
  option_map (fun l => ED (nb D) (tl D) l (elementMatrix_ D) (elementVector_ D)) l.

(** v(convertToSingleIndex(basisFunction, unknown)) = val *)
Definition put (D : ElementData) (basisFunction unknown : nat) (val : A) (v : list A) : option (list A) :=
  match convertToSingleIndex D basisFunction unknown with None => None | Some k => write v k val end.
(** v(convertToSingleIndex(basisFunction, unknown)) *)
Definition get (D : ElementData) (basisFunction unknown : nat) (v : list A) : option A :=
  match convertToSingleIndex D basisFunction unknown with None => None | Some k => nth_error v k end.

(** ElementData.cpp:195-210 setData *)
Definition setData (D : ElementData) (timeLevel unknown basisFunction : nat) (val : A) : option ElementData :=
  match nth_error (nb D) unknown with
  | None => None
  | Some n =>
      if (timeLevel <? length (tl D)) && (basisFunction <? n)
      then with_tl D (change (tl D) timeLevel (fun v => put D basisFunction unknown val (fit D v)))
      else None
  end.
(** ElementData.cpp:215-228 getData *)
Definition getData (D : ElementData) (timeLevel unknown basisFunction : nat) : option A :=
  match nth_error (nb D) unknown, nth_error (tl D) timeLevel with
  | Some n, Some v =>
      if (basisFunction <? n) && (length v =? total D) then get D basisFunction unknown v else None
  | _, _ => None
  end.

(** ElementData.cpp:235-254 setTimeLevelData(timeLevel, unknown, val) *)
Definition setTimeLevelData (D : ElementData) (timeLevel unknown : nat) (val : list A) : option ElementData :=
  match nth_error (nb D) unknown with
  | None => None
  | Some n =>
      if (length val =? n) && (timeLevel <? length (tl D))
      then with_tl D (change (tl D) timeLevel (fun v =>
             for_loop (length val) (fun iB v =>
               match nth_error val iB with None => None | Some x => put D iB unknown x v end) (fit D v)))
      else None
  end.
(** ElementData.cpp:256-269 setTimeLevelData(timeLevel, val) *)
Definition setTimeLevelData_single (D : ElementData) (timeLevel : nat) (val : list A) : option ElementData :=
  match nth_error (nb D) 0 with
  | None => None
  | Some number =>
      if forallb (fun index => index =? number) (nb D) && (length val =? number) && (timeLevel <? length (tl D))
      then setTimeLevelData D timeLevel 0 val else None
  end.
(** ElementData.cpp:273-289 getTimeLevelData *)
Definition getTimeLevelData (D : ElementData) (timeLevel unknown : nat) : option (list A) :=
  match nth_error (nb D) unknown, nth_error (tl D) timeLevel with
  | Some n, Some v => collect n (fun iB => get D iB unknown v)
  | _, _ => None
  end.
(** ElementData.cpp:294-310 setTimeLevelDataVector *)
Definition setTimeLevelDataVector (D : ElementData) (timeLevel : nat) (val : list A) : option ElementData :=
  if (length val =? total D) && (timeLevel <? length (tl D))
  then with_tl D (change (tl D) timeLevel (fun _ => Some val)) else None.
(** ElementData.cpp:314-324 getTimeLevelDataVector, const *)
Definition getTimeLevelDataVector (D : ElementData) (timeLevel : nat) : option (list A) :=
  match nth_error (tl D) timeLevel with
  | Some v => if length v =? total D then Some v else None
  | None => None
  end.
(** ElementData.cpp:326-340 getTimeLevelDataVector, not const: may resize *)
Definition openTimeLevelDataVector (D : ElementData) (timeLevel : nat) : option ElementData :=
  with_tl D (change (tl D) timeLevel (fun v => Some (fit D v))).

(** ElementData.h:125-131 setNumberOfTimeIntegrationVectors *)
Definition setNumberOfTimeIntegrationVectors (D : ElementData) (n : nat) : ElementData :=
  ED (nb D) (tl D) (vresize (ti D) n []) (elementMatrix_ D) (elementVector_ D).
(** ElementData.cpp:342-372 getTimeIntegrationVector *)
Definition getTimeIntegrationVector (D : ElementData) (i : nat) : option (list A) :=
  match nth_error (ti D) i with
  | Some v => if length v =? total D then Some v else None
  | None => None
  end.
(** ElementData.cpp:374-394 setTimeIntegrationVector *)
Definition setTimeIntegrationVector (D : ElementData) (i : nat) (val : list A) : option ElementData :=
  if length val =? total D then with_ti D (change (ti D) i (fun _ => Some val)) else None.
(** ElementData.cpp:401-428 getTimeIntegrationSubvector *)
Definition getTimeIntegrationSubvector (D : ElementData) (i unknown : nat) : option (list A) :=
  match nth_error (nb D) unknown, nth_error (ti D) i with
  | Some n, Some v => if length v =? total D then collect n (fun iB => get D iB unknown v) else None
  | _, _ => None
  end.
(** ElementData.cpp:437-463 setTimeIntegrationSubvector *)
Definition setTimeIntegrationSubvector (D : ElementData) (i unknown : nat) (val : list A) : option ElementData :=
  match nth_error (nb D) unknown with
  | None => None
  | Some n =>
      if length val =? n
      then with_ti D (change (ti D) i (fun v =>
             for_loop n (fun iB v =>
               match nth_error val iB with None => None | Some x => put D iB unknown x v end) (fit D v)))
      else None
  end.
(** ElementData.cpp:465-482 getTimeIntegrationData *)
Definition getTimeIntegrationData (D : ElementData) (i unknown basisFunction : nat) : option A :=
  match nth_error (ti D) i with
  | Some v => if length v =? total D then get D basisFunction unknown v else None
  | None => None
  end.
(** ElementData.cpp:484-502 setTimeIntegrationData *)
Definition setTimeIntegrationData (D : ElementData) (i unknown basisFunction : nat) (val : A) : option ElementData :=
  with_ti D (change (ti D) i (fun v => put D basisFunction unknown val (fit D v))).

(** ElementData.cpp:151-157 setNumberOfBasisFunctions(number, unknown): only the time
    integration vectors are resized *)
Definition setNumberOfBasisFunctions (D : ElementData) (number unknown : nat) : option ElementData :=
  match write (nb D) unknown number with
  | None => None
  | Some c =>
      let D' := ED c (tl D) (ti D) (elementMatrix_ D) (elementVector_ D) in
      Some (ED c (tl D) (map (fun v => vresize v (total D') zero) (ti D)) (elementMatrix_ D) (elementVector_ D))
  end.

(** ElementData.cpp:86-100 setElementMatrix, 102-121 getElementMatrix *)
Definition setElementMatrix (D : ElementData) (M : matrix A) (id : nat) : option ElementData :=
  let l := if length (elementMatrix_ D) <=? id then vresize (elementMatrix_ D) (id + 1) (Mat 0 0 []) else elementMatrix_ D in
  option_map (fun l => ED (nb D) (tl D) (ti D) l (elementVector_ D)) (write l id M).
Definition getElementMatrix (D : ElementData) (id : nat) : option (matrix A) := nth_error (elementMatrix_ D) id.
(** ElementData.cpp:123-140 setElementVector, getElementVector *)
Definition setElementVector (D : ElementData) (v : list A) (id : nat) : option ElementData :=
  let l := if length (elementVector_ D) <=? id then vresize (elementVector_ D) (id + 1) [] else elementVector_ D in
  option_map (fun l => ED (nb D) (tl D) (ti D) (elementMatrix_ D) l) (write l id v).
Definition getElementVector (D : ElementData) (id : nat) : option (list A) := nth_error (elementVector_ D) id.

(** The calls that change the stored coefficients. *)
Inductive call :=
  | SetData (t u b : nat) (x : A)
  | SetTimeLevelData (t u : nat) (v : list A)
  | SetTimeLevelDataSingle (t : nat) (v : list A)
  | SetTimeLevelDataVector (t : nat) (v : list A)
  | OpenTimeLevelDataVector (t : nat)
  | SetNumberOfTimeIntegrationVectors (n : nat)
  | SetTimeIntegrationVector (i : nat) (v : list A)
  | SetTimeIntegrationSubvector (i u : nat) (v : list A)
  | SetTimeIntegrationData (i u b : nat) (x : A).
Definition run1 (D : ElementData) (c : call) : option ElementData :=
  match c with
  | SetData t u b x => setData D t u b x
  | SetTimeLevelData t u v => setTimeLevelData D t u v
  | SetTimeLevelDataSingle t v => setTimeLevelData_single D t v
  | SetTimeLevelDataVector t v => setTimeLevelDataVector D t v
  | OpenTimeLevelDataVector t => openTimeLevelDataVector D t
  | SetNumberOfTimeIntegrationVectors n => Some (setNumberOfTimeIntegrationVectors D n)
  | SetTimeIntegrationVector i v => setTimeIntegrationVector D i v
  | SetTimeIntegrationSubvector i u v => setTimeIntegrationSubvector D i u v
  | SetTimeIntegrationData i u b x => setTimeIntegrationData D i u b x
  end.
Fixpoint run (D : ElementData) (h : list call) : option ElementData :=
  match h with
  | [] => Some D
  | c :: h' => match run1 D c with None => None | Some D' => run D' h' end
  end.
End ElementData.
Arguments ElementData : clear implicits.
Arguments call : clear implicits.
