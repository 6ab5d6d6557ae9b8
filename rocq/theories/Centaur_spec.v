(** Specification: what a file of Centaur describes. *)
From Coq Require Import List ZArith Bool.
Import ListNotations.
Open Scope Z_scope.

(** A number of 32 bits as four bytes, the least significant first. *)
Definition number (n : Z) : list Z := [n mod 256; n / 256 mod 256; n / 65536 mod 256; n / 16777216 mod 256].
Definition fits (n : Z) : Prop := 0 <= n < 2 ^ 32.

(** A record of an unformatted Fortran file: its length, its content, and its length again. *)
Definition record (content : list Z) : list Z :=
  number (Z.of_nat (length content)) ++ content ++ number (Z.of_nat (length content)).
Definition fits_record (content : list Z) : Prop := fits (Z.of_nat (length content)).

(** Entries on lines with at most [p] entries: every line is full, but for the last. *)
Inductive on_lines {A : Type} (p : nat) : list A -> list (list A) -> Prop :=
| last_line l : l <> [] -> (length l <= p)%nat -> on_lines p l [l]
| full_line l rest lines : length l = p -> on_lines p rest lines -> on_lines p (l ++ rest) (l :: lines).

(** A group: a record with the number of entries (in files with several lines also the number on a line), and a record
    for each line; a group without entries has one empty record. *)
Definition head (several : bool) (n p : Z) : list Z := record (if several then number n ++ number p else number n).
Inductive group (several : bool) (entries : list (list Z)) : list Z -> Prop :=
| no_entries p : entries = [] -> fits p -> group several entries (head several 0 p ++ record [])
| some_entries p lines :
    fits (Z.of_nat (length entries)) -> fits (Z.of_nat p) -> (several = false -> p = length entries) ->
    on_lines p entries lines ->
    group several entries (head several (Z.of_nat (length entries)) (Z.of_nat p) ++ concat (map (fun l => record (concat l)) lines)).
(** A group of which every entry has several properties, in records of any length that have their own lines: the number
    of lines of a property is that of the entries over the number on a line, rounded up. *)
Definition lines_needed (n p : Z) : Z := (n + p - 1) / p.
Inductive unread_group (several : bool) (properties : nat) (n : Z) : list Z -> Prop :=
| no_unread p : n = 0 -> fits p -> unread_group several properties n (head several 0 p ++ record [])
| some_unread p records :
    0 < n -> 0 < p -> fits n -> fits p -> (several = false -> p = n) -> Forall fits_record records ->
    Z.of_nat (length records) = Z.of_nat properties * lines_needed n p ->
    unread_group several properties n (head several n p ++ concat (map record records)).

(** The places of the corners in the order of Centaur, and in that of hpGEM, where squares and cubes have their corners
    in lexicographical order and the top of a pyramid comes first.  In three dimensions: hexahedra, prisms, pyramids,
    tetrahedra; in two: triangles, quadrilaterals. *)
Definition place := (Z * Z * Z)%type.
Definition triangle (z : Z) : list place := [(0, 0, z); (2, 0, z); (0, 2, z)].
Definition around (z : Z) : list place := [(0, 0, z); (2, 0, z); (2, 2, z); (0, 2, z)].
Definition square (z : Z) : list place := [(0, 0, z); (2, 0, z); (0, 2, z); (2, 2, z)].
Definition centaur_corners (three : bool) (type : nat) : list place :=
  if three then nth type [around 0 ++ around 2; triangle 0 ++ triangle 2; around 0 ++ [(1, 1, 2)]; triangle 0 ++ [(0, 0, 2)]] []
  else nth type [triangle 0; around 0] [].
Definition hpgem_corners (three : bool) (type : nat) : list place :=
  if three then nth type [square 0 ++ square 2; triangle 0 ++ triangle 2; (1, 1, 2) :: square 0; triangle 0 ++ [(0, 0, 2)]] []
  else nth type [triangle 0; square 0] [].
(** [l] holds the node of [e], counted from 0, at each corner *)
Definition same_element (three : bool) (type : nat) (e l : list Z) : Prop :=
  length l = length e /\
  forall k corner, nth_error (centaur_corners three type) k = Some corner ->
    exists j node, nth_error (hpgem_corners three type) j = Some corner /\ nth_error e k = Some node /\ nth_error l j = Some (node - 1).

(** The group of the elements of one type: its entries are the numbers of the nodes, counted from 1. *)
Definition numbers (l : list Z) : list Z := concat (map number l).
Definition good_element (three : bool) (type : nat) (e : list Z) : Prop :=
  length e = length (centaur_corners three type) /\ Forall (fun node => 1 <= node < 2 ^ 32) e.
Definition elements_group (several three : bool) (type : nat) (es : list (list Z)) (g : list Z) : Prop :=
  Forall (good_element three type) es /\ fits (Z.of_nat (length es) * 32) /\ group several (map numbers es) g.

(** The group of the coordinates: an entry holds the coordinates of a node, each a double of eight bytes. *)
Definition coordinates_group (several three : bool) (nodes : list (list (list Z))) (g : list Z) : Prop :=
  Forall (fun node => length node = (if three then 3 else 2)%nat /\ Forall (fun x => length x = 8%nat) node) nodes /\
  fits (Z.of_nat (length nodes) * 24) /\ group several (map (@concat Z) nodes) g.

(** The periodic connections: for each two transformations (a number and a matrix) and the pairs of nodes, counted from
    1; a second node 0 means that there is none. *)
Definition connection (three : bool) (pairs : list (Z * Z)) (b : list Z) : Prop :=
  exists t1 t2, length t1 = (if three then 132 else 76)%nat /\ length t2 = length t1 /\
    fits (Z.of_nat (length pairs) * 8) /\ Forall (fun p => 1 <= fst p < 2 ^ 32 /\ fits (snd p)) pairs /\
    b = record t1 ++ record t2 ++ record (number (Z.of_nat (length pairs))) ++ record (concat (map (fun p => number (fst p) ++ number (snd p)) pairs)).
Definition connections (three : bool) (l : list (list (Z * Z))) (b : list Z) : Prop :=
  fits (Z.of_nat (length l)) /\ exists bs, Forall2 (connection three) l bs /\ b = record (number (Z.of_nat (length l))) ++ concat bs.

(** Zones: a zone has a name and for each of the four types the number, counted from 1, of its first element.  It runs to
    the first element of the next zone.  [sensible]: the first zone starts at 1, zones start in order and not after the
    last element. *)
Section Zones.
Context {A : Type}.
Definition first (zones : list (A * list nat)) (z type : nat) (n : nat) : Prop :=
  exists name row, nth_error zones z = Some (name, row) /\ nth_error row type = Some n.
Definition sensible (counts : list nat) (zones : list (A * list nat)) : Prop :=
  length counts = 4%nat /\ zones <> [] /\ (forall name row, In (name, row) zones -> length row = 4%nat) /\
  (forall type n, first zones 0 type n -> n = 1%nat) /\
  (forall y z type m n, (y <= z)%nat -> first zones y type m -> first zones z type n -> (m <= n)%nat) /\
  (forall z type n count, first zones z type n -> nth_error counts type = Some count -> (n <= S count)%nat).
(** element [i] of a type, counted from 0, is in zone [z] *)
Definition in_zone (zones : list (A * list nat)) (type i z : nat) : Prop :=
  (exists n, first zones z type n /\ (n <= S i)%nat) /\ (forall n, first zones (S z) type n -> (S i < n)%nat).
(** the number of elements of the types before this one *)
Definition before (counts : list nat) (type : nat) : nat := fold_right Nat.add 0%nat (firstn type counts).
End Zones.
