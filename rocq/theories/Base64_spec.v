(** Independent specification of base64 (RFC 4648, section 4): the input is a
    string of bits, most significant bit of each byte first; every six bits
    select a character of the alphabet; the last group is filled with zero bits
    and the output is padded with '=' to a multiple of four characters. *)
From Coq Require Import List NArith String Ascii Arith.
Import ListNotations.

Definition alphabet : list ascii :=
  list_ascii_of_string
    "ABCDEFGHIJKLMNOPQRSTUVWXYZabcdefghijklmnopqrstuvwxyz0123456789+/"%string.

(** most significant first *)
Definition bits_of_byte (b : N) : list bool :=
  map (N.testbit b) [7; 6; 5; 4; 3; 2; 1; 0]%N.

Definition value_of_bits (l : list bool) : N :=
  fold_left (fun acc b => (2 * acc + (if b : bool then 1 else 0))%N) l 0%N.

Definition rfc_char (sextet : list bool) : ascii :=
  nth (N.to_nat (value_of_bits sextet)) alphabet zero.

Fixpoint sextets (l : list bool) : list (list bool) :=
  match l with
  | b5 :: b4 :: b3 :: b2 :: b1 :: b0 :: r => [b5; b4; b3; b2; b1; b0] :: sextets r
  | [] => []
  | _ => [firstn 6 (l ++ [false; false; false; false; false])]
  end.

Definition padding (n : nat) : list ascii :=
  match n mod 3 with
  | 1 => ["="%char; "="%char]
  | 2 => ["="%char]
  | _ => []
  end.

Definition rfc_encode (bytes : list N) : list ascii :=
  map rfc_char (sextets (List.concat (map bits_of_byte bytes))) ++ padding (List.length bytes).

(** The decoder of the receiving side. *)
Fixpoint index_of (c : ascii) (l : list ascii) : option nat :=
  match l with
  | [] => None
  | d :: l' =>
      if Ascii.eqb c d then Some 0
      else match index_of c l' with Some k => Some (S k) | None => None end
  end.

Definition char_bits (c : ascii) : option (list bool) :=
  match index_of c alphabet with
  | Some k => Some (map (N.testbit (N.of_nat k)) [5; 4; 3; 2; 1; 0]%N)
  | None => None
  end.

Fixpoint payload (s : list ascii) : option (list bool) :=
  match s with
  | [] => Some []
  | c :: r =>
      if Ascii.eqb c "="%char then
        (if forallb (Ascii.eqb "="%char) r then Some [] else None)
      else match char_bits c, payload r with
           | Some b, Some bs => Some (b ++ bs)
           | _, _ => None
           end
  end.

Fixpoint octets (l : list bool) : list N :=
  match l with
  | b7 :: b6 :: b5 :: b4 :: b3 :: b2 :: b1 :: b0 :: r =>
      value_of_bits [b7; b6; b5; b4; b3; b2; b1; b0] :: octets r
  | _ => []
  end.

Definition rfc_decode (s : list ascii) : option (list N) :=
  if (List.length s mod 4 =? 0)%nat
  then match payload s with Some bs => Some (octets bs) | None => None end
  else None.

Definition is_byte (b : N) : Prop := (b < 256)%N.
