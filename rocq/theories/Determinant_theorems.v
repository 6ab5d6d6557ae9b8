(** C21, C22: determinants and generalised cross products.
    Scalars: any commutative ring, given by its operations and [ring_theory]. *)
From Coq Require Import List Arith Bool ZArith Permutation Ring_theory.
From Verif Require Import Loop_model Matrix_model Matrix_spec Determinant_model Determinant_spec Determinant_proofs.
Import ListNotations.

(** The specification's sum ranges over the permutations of 0..n-1, each once. *)
Theorem C21_sum_ranges_over_permutations : forall n,
  NoDup (arrangements (seq 0 n)) /\ forall p, In p (arrangements (seq 0 n)) <-> Permutation (seq 0 n) p.
Proof. exact all_permutations. Qed.
Print Assumptions C21_sum_ranges_over_permutations.

(** determinant returns Leibniz' sum, up to the largest size the code supports. *)
Theorem C21_determinant_is_leibniz : forall A zero one add mul sub opp,
  ring_theory zero one add mul sub opp (@eq A) ->
  forall M n e, is_matrix M n n e -> n <= 4 ->
  determinant one add mul sub opp M = Some (leibniz zero one add mul opp n e).
Proof. exact @determinant_ok. Qed.
Print Assumptions C21_determinant_is_leibniz.

(** Larger matrices are refused, not computed wrongly. *)
Theorem C21_larger_refused : forall A (one : A) add mul sub opp M n e,
  is_matrix M n n e -> 4 < n -> determinant one add mul sub opp M = None.
Proof. exact @determinant_unsupported. Qed.
Print Assumptions C21_larger_refused.
Theorem C21_only_square : forall A (one : A) add mul sub opp M,
  nrows M <> ncols M -> determinant one add mul sub opp M = None.
Proof. exact @determinant_square. Qed.
Print Assumptions C21_only_square.

Theorem C21_identity : forall A zero one add mul sub opp,
  ring_theory zero one add mul sub opp (@eq A) ->
  forall M n, is_matrix M n n (fun i j => if i =? j then one else zero) -> n <= 4 ->
  determinant one add mul sub opp M = Some one.
Proof. exact @determinant_identity. Qed.
Print Assumptions C21_identity.

(** Multiplicative, for the matrix product of the code. *)
Theorem C21_multiplicative : forall A zero one add mul sub opp,
  ring_theory zero one add mul sub opp (@eq A) ->
  forall M N P n e f, is_matrix M n n e -> is_matrix N n n f -> n <= 4 ->
  mmul zero one add mul M N = Some P -> 0 < n ->
  exists a b, determinant one add mul sub opp M = Some a /\ determinant one add mul sub opp N = Some b /\
    determinant one add mul sub opp P = Some (mul a b).
Proof. exact @product_det. Qed.
Print Assumptions C21_multiplicative.

Theorem C21_transpose : forall A zero one add mul sub opp,
  ring_theory zero one add mul sub opp (@eq A) ->
  forall M N n e, is_matrix M n n e -> is_matrix N n n (fun i j => e j i) -> n <= 4 ->
  determinant one add mul sub opp M = determinant one add mul sub opp N.
Proof. exact @determinant_transpose. Qed.
Print Assumptions C21_transpose.

(** Alternating ... *)
Theorem C21_equal_columns : forall A zero one add mul sub opp,
  ring_theory zero one add mul sub opp (@eq A) ->
  forall M n e k l, is_matrix M n n e -> n <= 4 -> k < n -> l < n -> k <> l ->
  (forall i, i < n -> e i k = e i l) ->
  determinant one add mul sub opp M = Some zero.
Proof. exact @determinant_equal_columns. Qed.
Print Assumptions C21_equal_columns.

Theorem C21_swap_columns : forall A zero one add mul sub opp,
  ring_theory zero one add mul sub opp (@eq A) ->
  forall M N n e k l, is_matrix M n n e -> is_matrix N n n (swap_columns e k l) ->
  n <= 4 -> k < n -> l < n -> k <> l ->
  exists d, determinant one add mul sub opp M = Some d /\ determinant one add mul sub opp N = Some (opp d).
Proof. exact @determinant_swap. Qed.
Print Assumptions C21_swap_columns.

(** ... and linear in each column. *)
Theorem C21_linear_in_column : forall A zero one add mul sub opp,
  ring_theory zero one add mul sub opp (@eq A) ->
  forall M X Y n e k a b x y,
  is_matrix M n n e ->
  is_matrix X n n (fun i j => if j =? k then x i else e i j) ->
  is_matrix Y n n (fun i j => if j =? k then y i else e i j) ->
  n <= 4 -> k < n -> (forall i, i < n -> e i k = add (mul a (x i)) (mul b (y i))) ->
  exists p q, determinant one add mul sub opp X = Some p /\ determinant one add mul sub opp Y = Some q /\
    determinant one add mul sub opp M = Some (add (mul a p) (mul b q)).
Proof. exact @determinant_linear. Qed.
Print Assumptions C21_linear_in_column.

Example C21_nonvacuous :
  let e := fun i j => nth j (nth i [[2;0;1;3]; [1;1;0;2]; [0;5;2;1]; [4;1;1;1]]%Z []) 0%Z in
  let M := Mat 4 4 [2;1;0;4; 0;1;5;1; 1;0;2;1; 3;2;1;1]%Z in
  is_matrix M 4 4 e /\ determinant 1%Z Z.add Z.mul Z.sub Z.opp M = Some (-51)%Z /\
  (exists P, mmul 0%Z 1%Z Z.add Z.mul M M = Some P /\ determinant 1%Z Z.add Z.mul Z.sub Z.opp P = Some 2601%Z).
Proof.
  split; [|split; [reflexivity|]].
  - repeat split. intros i j.
    destruct i as [|[|[|[|i]]]]; destruct j as [|[|[|[|j]]]]; reflexivity.
  - eexists. split; reflexivity.
Qed.

(** The generalised cross product of n-1 columns of length n: entry i is the
    determinant of the columns followed by unit vector i. *)
Theorem C22_entries : forall A zero one add mul sub opp,
  ring_theory zero one add mul sub opp (@eq A) ->
  forall M n e, is_matrix M n (n - 1) e -> 2 <= n <= 4 ->
  exists w, computeWedgeStuffVector add mul sub opp M = Some w /\
    is_vector w n (fun i => leibniz zero one add mul opp n (augmented (n - 1) e (unit_vector zero one i))).
Proof. exact @wedge_entries. Qed.
Print Assumptions C22_entries.

(** Its inner product with v is the determinant of the columns followed by v. *)
Theorem C22_inner_product_is_determinant : forall A zero one add mul sub opp,
  ring_theory zero one add mul sub opp (@eq A) ->
  forall M n e v, is_matrix M n (n - 1) e -> 2 <= n <= 4 ->
  exists w, computeWedgeStuffVector add mul sub opp M = Some (map w (seq 0 n)) /\
    forall D, is_matrix D n n (augmented (n - 1) e v) ->
    determinant one add mul sub opp D = Some (inner zero add mul n w v).
Proof. exact @wedge_inner_det. Qed.
Print Assumptions C22_inner_product_is_determinant.

Theorem C22_orthogonal_to_columns : forall A zero one add mul sub opp,
  ring_theory zero one add mul sub opp (@eq A) ->
  forall M n e, is_matrix M n (n - 1) e -> 2 <= n <= 4 ->
  exists w, computeWedgeStuffVector add mul sub opp M = Some (map w (seq 0 n)) /\
    forall k, k < n - 1 -> inner zero add mul n w (fun i => e i k) = zero.
Proof. exact @wedge_orthogonal_to. Qed.
Print Assumptions C22_orthogonal_to_columns.

Theorem C22_swapped_columns : forall A zero one add mul sub opp,
  ring_theory zero one add mul sub opp (@eq A) ->
  forall M N n e k l, is_matrix M n (n - 1) e -> is_matrix N n (n - 1) (swap_columns e k l) ->
  2 <= n <= 4 -> k < n - 1 -> l < n - 1 -> k <> l ->
  exists w, computeWedgeStuffVector add mul sub opp M = Some w /\
    computeWedgeStuffVector add mul sub opp N = Some (map opp w).
Proof. exact @wedge_swapped. Qed.
Print Assumptions C22_swapped_columns.

(** Under a linear map J of the columns, the product with a mapped vector is
    multiplied with the determinant of J: this is what makes normals of a face of
    the reference element go to normals of the physical face. *)
Theorem C22_linear_map : forall A zero one add mul sub opp,
  ring_theory zero one add mul sub opp (@eq A) ->
  forall J M JM n j e v, is_matrix J n n j -> is_matrix M n (n - 1) e -> 2 <= n <= 4 ->
  mmul zero one add mul J M = Some JM ->
  exists d w w', determinant one add mul sub opp J = Some d /\
    computeWedgeStuffVector add mul sub opp M = Some (map w (seq 0 n)) /\
    computeWedgeStuffVector add mul sub opp JM = Some (map w' (seq 0 n)) /\
    inner zero add mul n w' (fun i => bigsum zero add n (fun l => mul (j i l) (v l)))
    = mul d (inner zero add mul n w v).
Proof. exact @wedge_mapped. Qed.
Print Assumptions C22_linear_map.

(** Sizes for which there is no formula, and matrices of another shape, are refused. *)
Theorem C22_other_sizes_refused : forall A (add mul sub : A -> A -> A) opp M n m e,
  is_matrix M n m e -> ~ (n = S m /\ 2 <= n <= 4) -> computeWedgeStuffVector add mul sub opp M = None.
Proof. exact @wedge_refused. Qed.
Print Assumptions C22_other_sizes_refused.

Example C22_nonvacuous :
  let e := fun i j => nth j (nth i [[2;0]; [1;1]; [0;5]]%Z []) 0%Z in
  let M := Mat 3 2 [2;1;0; 0;1;5]%Z in
  is_matrix M 3 (3 - 1) e /\ computeWedgeStuffVector Z.add Z.mul Z.sub Z.opp M = Some [5; -10; 2]%Z.
Proof.
  split; [|reflexivity]. repeat split. intros i j.
  destruct i as [|[|[|i]]]; destruct j as [|[|j]]; reflexivity.
Qed.
