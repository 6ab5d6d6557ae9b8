(** Model of kernel/Utilities/ElementLocalIndexing.{h,cpp} and
    kernel/Utilities/FaceLocalIndexing.{h,cpp}.

    Offsets and sizes are [N]; the sentinel is the largest [std::size_t].  Sums
    over the DoFs of one element are not reduced modulo 2^64, the sum in
    FaceLocalIndexing::getDoFOffset is.  An element is the list of its numbers of
    basis functions per unknown; [None] is a failed assertion or undefined
    behaviour. *)
From Coq Require Import List NArith Arith Bool.
From Verif Require Import Std_model.
Import ListNotations.
Open Scope N_scope.

Definition elem := list N.

(** ElementLocalIndexing.cpp:45-46 [UNKNOWN_NOT_INCLUDED] *)
Definition NOT_INCLUDED : N := 2 ^ 64 - 1.

(** ElementLocalIndexing.h:141-147: members *)
Record eli := { element : option elem; offsets : list N; sizes : list N;
                included : list nat }.

(** ElementLocalIndexing.cpp:48-49: constructor *)
Definition eli_new : eli := {| element := None; offsets := []; sizes := []; included := [] |}.

Fixpoint set_at (l : list N) (i : nat) (x : N) : option (list N) :=
  match l, i with
  | [], _ => None
  | _ :: r, O => Some (x :: r)
  | y :: r, S i' => match set_at r i' x with Some r' => Some (y :: r') | None => None end
  end.

(** std::vector::resize to a larger size *)
Definition grow (l : list N) (n : nat) (x : N) : list N := l ++ repeat x (n - length l).

(** ElementLocalIndexing.cpp:103-106 [clearUnknownVectors] *)
Definition clearUnknownVectors (s : eli) : eli :=
  {| element := element s; offsets := map (fun _ => NOT_INCLUDED) (offsets s);
     sizes := map (fun _ => 0) (sizes s); included := included s |}.

(** ElementLocalIndexing.cpp:85-91, the loop over the included unknowns *)
Fixpoint fill (e : elem) (us : list nat) (total : N) (offs szs : list N)
  : option (list N * list N) :=
  match us with
  | [] => Some (offs, szs)
  | u :: us' =>
      match nth_error e u with
      | None => None
      | Some n =>
          match set_at offs u total, set_at szs u n with
          | Some offs', Some szs' => fill e us' (total + n) offs' szs'
          | _, _ => None
          end
      end
  end.

(** ElementLocalIndexing.cpp:80-93 [reinit(element)] *)
Definition reinitElement (e : option elem) (s : eli) : option eli :=
  match e with
  | None => Some (clearUnknownVectors {| element := None; offsets := offsets s;
                                         sizes := sizes s; included := included s |})
  | Some el =>
      match fill el (included s) 0 (offsets s) (sizes s) with
      | None => None
      | Some (offs, szs) =>
          Some {| element := Some el; offsets := offs; sizes := szs; included := included s |}
      end
  end.

(** ElementLocalIndexing.cpp:55-61, the duplicate check that is only compiled with
    HPGEM_ASSERTS.  [includedUnknowns_.size() - 1] wraps around for the empty
    vector, so that the loop then reads outside of the vector. *)
Fixpoint has_adjacent_duplicate (l : list nat) : bool :=
  match l with
  | x :: ((y :: _) as r) => Nat.eqb x y || has_adjacent_duplicate r
  | _ => false
  end.
Definition duplicate_check (asserts : bool) (sorted : list nat) : bool :=
  if asserts then
    match sorted with [] => false | _ => negb (has_adjacent_duplicate sorted) end
  else true.

(** ElementLocalIndexing.cpp:51-78 [reinit(includedUnknowns)] *)
Definition reinitUnknowns (asserts : bool) (us : list nat) (s : eli) : option eli :=
  let sorted := sort us in
  if duplicate_check asserts sorted then
    let s1 :=
      match sorted with
      | [] => {| element := element s; offsets := offsets s; sizes := sizes s; included := sorted |}
      | _ =>
          let maxUnknown := last sorted O in
          if Nat.leb (length (sizes s)) maxUnknown then
            {| element := element s; offsets := grow (offsets s) (S maxUnknown) NOT_INCLUDED;
               sizes := grow (sizes s) (S maxUnknown) 0; included := sorted |}
          else {| element := element s; offsets := offsets s; sizes := sizes s; included := sorted |}
      end in
    match element s1 with
    | None => Some s1
    | Some e => reinitElement (Some e) (clearUnknownVectors s1)
    end
  else None.

(** ElementLocalIndexing.h:86-91 [getDoFOffset] *)
Definition getDoFOffset (s : eli) (u : nat) : N := nth u (offsets s) NOT_INCLUDED.
(** ElementLocalIndexing.h:95-101 [getNumberOfDoFs(unknown)] *)
Definition getNumberOfDoFs (s : eli) (u : nat) : N := nth u (sizes s) 0.
(** ElementLocalIndexing.h:104-110 [getNumberOfDoFs()]; the unchecked access
    [sizes_[includedUnknown]] is modelled by [None] when out of range. *)
Fixpoint total_of (szs : list N) (us : list nat) : option N :=
  match us with
  | [] => Some 0
  | u :: us' => match nth_error szs u, total_of szs us' with
                | Some n, Some t => Some (n + t)
                | _, _ => None
                end
  end.
Definition getTotalDoFs (s : eli) : option N := total_of (sizes s) (included s).

(** histories of calls *)
Inductive call := Unknowns (us : list nat) | Elem (e : option elem).
Definition do_call (asserts : bool) (s : eli) (c : call) : option eli :=
  match c with
  | Unknowns us => reinitUnknowns asserts us s
  | Elem e => reinitElement e s
  end.
Fixpoint calls (asserts : bool) (s : eli) (h : list call) : option eli :=
  match h with
  | [] => Some s
  | c :: h' => match do_call asserts s c with None => None | Some s' => calls asserts s' h' end
  end.

(** *** FaceLocalIndexing *)
(** FaceLocalIndexing.h:160-163: members *)
Record fli := { left_ : eli; right_ : eli }.
Inductive side := LEFT | RIGHT.
(** FaceLocalIndexing.cpp:45: constructor *)
Definition fli_new : fli := {| left_ := eli_new; right_ := eli_new |}.

(** FaceLocalIndexing.cpp:47-51 [reinit(includedUnknowns)] *)
Definition freinitUnknowns (asserts : bool) (us : list nat) (s : fli) : option fli :=
  match reinitUnknowns asserts us (left_ s), reinitUnknowns asserts us (right_ s) with
  | Some l, Some r => Some {| left_ := l; right_ := r |}
  | _, _ => None
  end.
(** FaceLocalIndexing.cpp:53-57 [reinit(face)]; a face is its left element and,
    unless it is on the boundary, its right element *)
Definition freinitFace (l : elem) (r : option elem) (s : fli) : option fli :=
  match reinitElement (Some l) (left_ s), reinitElement r (right_ s) with
  | Some l', Some r' => Some {| left_ := l'; right_ := r' |}
  | _, _ => None
  end.

(** FaceLocalIndexing.h:72-86 [getDoFOffset] *)
Definition fDoFOffset (s : fli) (u : nat) (sd : side) : option N :=
  match sd with
  | LEFT => Some (getDoFOffset (left_ s) u)
  | RIGHT =>
      match element (right_ s), getTotalDoFs (left_ s) with
      | Some _, Some t => Some ((t + getDoFOffset (right_ s) u) mod 2 ^ 64)
      | _, _ => None
      end
  end.
(** FaceLocalIndexing.h:93-103 [getNumberOfDoFs(unknown, side)] *)
Definition fNumberOfDoFs (s : fli) (u : nat) (sd : side) : option N :=
  match sd with
  | LEFT => Some (getNumberOfDoFs (left_ s) u)
  | RIGHT => match element (right_ s) with
             | Some _ => Some (getNumberOfDoFs (right_ s) u)
             | None => None
             end
  end.

(** std::iota: [n] consecutive numbers *)
Definition iota (start : N) (n : N) : list N :=
  map (fun i => start + N.of_nat i) (seq 0 (N.to_nat n)).

(** FaceLocalIndexing.h:112-130 [getDoFMapping] *)
Definition getDoFMapping (s : fli) (u : nat) : option (list N) :=
  match fDoFOffset s u LEFT, fNumberOfDoFs s u LEFT with
  | Some lo, Some lc =>
      match element (right_ s) with
      | None => Some (iota lo lc)
      | Some _ =>
          match fDoFOffset s u RIGHT, fNumberOfDoFs s u RIGHT with
          | Some ro, Some rc => Some (iota lo lc ++ iota ro rc)
          | _, _ => None
          end
      end
  | _, _ => None
  end.
(** FaceLocalIndexing.h:133-135 [getNumberOfDoFs()] *)
Definition fTotalDoFs (s : fli) : option N :=
  match getTotalDoFs (left_ s), getTotalDoFs (right_ s) with
  | Some a, Some b => Some (a + b)
  | _, _ => None
  end.

Inductive fcall := FUnknowns (us : list nat) | FFace (l : elem) (r : option elem).
Definition do_fcall (asserts : bool) (s : fli) (c : fcall) : option fli :=
  match c with
  | FUnknowns us => freinitUnknowns asserts us s
  | FFace l r => freinitFace l r s
  end.
Fixpoint fcalls (asserts : bool) (s : fli) (h : list fcall) : option fli :=
  match h with
  | [] => Some s
  | c :: h' => match do_fcall asserts s c with None => None | Some s' => fcalls asserts s' h' end
  end.
