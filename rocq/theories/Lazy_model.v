(** Model of kernel/Base/LazyCached.h.

    The computation is a [std::function] that overwrites the cached value in
    place and may read other state of the program; here it is a function
    [compute env index old] of that other state [env], of the index and of the
    old value.  Operations are the calls of a client, interleaved with changes
    [SetEnv] of the other state.  The result of [get] also records whether the
    computation ran. *)
From Coq Require Import List Arith.
Import ListNotations.

Section Lazy.
Context {Env T : Type}.
Variable compute : Env -> nat -> T -> T.
Variable dflt : T.

Inductive op := SetEnv (e : Env) | Reset | ResetSize (n : nat) | Get (i : nat).

(** LazyCached.h:113-114, 189-190: the members of LazyVectorCached, plus the
    state of the rest of the program *)
Record state := { env : Env; values : list (bool * T) }.

Fixpoint update (l : list (bool * T)) (i : nat) (x : bool * T) : list (bool * T) :=
  match l, i with
  | [], _ => []
  | _ :: r, 0 => x :: r
  | y :: r, S i' => y :: update r i' x
  end.

(** LazyCached.h:150-160 [get]; [None] when the debug assertion fails (in a
    release build that access is undefined behaviour). *)
Definition get (s : state) (i : nat) : option (T * bool * state) :=
  match nth_error (values s) i with
  | None => None
  | Some (true, v) => Some (v, false, s)
  | Some (false, v) =>
      let v' := compute (env s) i v in
      Some (v', true, {| env := env s; values := update (values s) i (true, v') |})
  end.

(** LazyCached.h:165-168 [reset()] *)
Definition reset (s : state) : state :=
  {| env := env s; values := map (fun e => (false, snd e)) (values s) |}.

(** std::vector::resize(n, value) *)
Definition resize (l : list (bool * T)) (n : nat) (x : bool * T) : list (bool * T) :=
  firstn n l ++ repeat x (n - length l).

(** LazyCached.h:176-182 [reset(newSize)] *)
Definition resetSize (s : state) (n : nat) : state :=
  {| env := env s; values := resize (values (reset s)) n (false, dflt) |}.

(** one operation; the second component is the result of a [get] *)
Definition step (s : state) (o : op) : option (state * option (T * bool)) :=
  match o with
  | SetEnv e => Some ({| env := e; values := values s |}, None)
  | Reset => Some (reset s, None)
  | ResetSize n => Some (resetSize s n, None)
  | Get i => match get s i with
             | None => None
             | Some (v, ran, s') => Some (s', Some (v, ran))
             end
  end.

Fixpoint run (s : state) (h : list op) : option state :=
  match h with
  | [] => Some s
  | o :: h' => match step s o with None => None | Some (s', _) => run s' h' end
  end.

(** LazyCached.h:118, 135-136, the constructors: no entries *)
Definition start (e : Env) : state := {| env := e; values := [] |}.

(** The result of calling [get i] after the history [h]; [None] if the history
    or the call fails. *)
Definition get_after (e : Env) (h : list op) (i : nat) : option (T * bool) :=
  match run (start e) h with
  | None => None
  | Some s => match get s i with None => None | Some (v, ran, _) => Some (v, ran) end
  end.

(** *** LazyCached, the cache for one value, LazyCached.h:54-104 *)
Record state1 := { env1 : Env; hasValue : bool; value : T }.
Inductive op1 := SetEnv1 (e : Env) | Reset1 | Get1.

(** LazyCached.h:83-89 [get]; the index argument of [compute] is 0 *)
Definition get1 (s : state1) : T * bool * state1 :=
  if hasValue s then (value s, false, s)
  else let v := compute (env1 s) 0 (value s) in
       (v, true, {| env1 := env1 s; hasValue := true; value := v |}).

(** LazyCached.h:92 [reset] *)
Definition reset1 (s : state1) : state1 :=
  {| env1 := env1 s; hasValue := false; value := value s |}.

Definition step1 (s : state1) (o : op1) : state1 :=
  match o with
  | SetEnv1 e => {| env1 := e; hasValue := hasValue s; value := value s |}
  | Reset1 => reset1 s
  | Get1 => snd (get1 s)
  end.

(** LazyCached.h:58, 69-70: constructor *)
Definition start1 (e : Env) : state1 := {| env1 := e; hasValue := false; value := dflt |}.

Definition get1_after (e : Env) (h : list op1) : T * bool :=
  fst (get1 (fold_left step1 h (start1 e))).
End Lazy.
Arguments op : clear implicits.
Arguments op1 : clear implicits.
Arguments state : clear implicits.
Arguments state1 : clear implicits.
