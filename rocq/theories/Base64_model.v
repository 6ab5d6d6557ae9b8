(** Model of kernel/Output/base64.{h,cpp}.

    A [char] of the raw data is a number below 256 ([N]); the pointer/length
    pair is the list of these numbers.  The result string is a list of
    characters.  Indexing the table [base64Encode] outside its 64 digits is
    [None]. *)
From Coq Require Import List NArith String Ascii.
Import ListNotations.
Local Open Scope N_scope.

(** base64.h:54-55, the 64 digits (the closing NUL is left out: index 64 is
    never a legal digit). *)
Definition base64Encode : list ascii :=
  list_ascii_of_string
    "ABCDEFGHIJKLMNOPQRSTUVWXYZabcdefghijklmnopqrstuvwxyz0123456789+/"%string.

(** [base64Encode[i]] *)
Definition digit (i : N) : option ascii := nth_error base64Encode (N.to_nat i).

Definition pad : ascii := "="%char.

(** base64.cpp:66-71, the four index expressions.  The C++ operands are
    promoted to [int]; [x << 4] of a byte does not overflow. *)
Definition idx0 (a : N) : N := N.land (N.shiftr a 2) 63.
Definition idx1 (a b : N) : N :=
  N.lor (N.land (N.shiftl a 4) 48) (N.land (N.shiftr b 4) 15).
Definition idx2 (b c : N) : N :=
  N.lor (N.land (N.shiftl b 2) 60) (N.land (N.shiftr c 6) 3).
Definition idx3 (c : N) : N := N.land c 63.

(** push a list of looked-up digits; fails if one lookup fails *)
Fixpoint push_all (cs : list (option ascii)) (rest : option (list ascii))
  : option (list ascii) :=
  match cs with
  | [] => rest
  | None :: _ => None
  | Some c :: cs' =>
      match push_all cs' rest with
      | Some r => Some (c :: r)
      | None => None
      end
  end.

(** base64.cpp:54-89 [toBase64]: the while loop over groups of three bytes,
    then the tails of length two and one. *)
Fixpoint toBase64 (raw : list N) : option (list ascii) :=
  match raw with
  | a :: b :: c :: rest =>
      push_all [digit (idx0 a); digit (idx1 a b); digit (idx2 b c); digit (idx3 c)]
               (toBase64 rest)
  | [a; b] =>
      push_all [digit (idx0 a); digit (idx1 a b);
                digit (N.land (N.shiftl b 2) 60); Some pad] (Some [])
  | [a] =>
      push_all [digit (idx0 a); digit (N.land (N.shiftl a 4) 48);
                Some pad; Some pad] (Some [])
  | [] => Some []
  end.
