(** C73: the texts that describe materials and absorbing layers. *)
From Coq Require Import List Arith Bool Ascii ZArith Lia.
From Verif Require Import Materials_model Materials_spec Materials_proofs.
Import ListNotations.

(** A text of lines is accepted exactly if each line that is not empty has an expression, a comma and a number, where the
    last comma counts.  Then an element gets the value of the first line of which the expression matches the name of its
    zone, and is refused if there is none. *)
Theorem C73_zones : forall (RE E : Type) (compile : list ascii -> option RE) isMatch (stod : list ascii -> option (E * nat)) separator lines,
  lines <> [] -> Forall (fun line => ~ In separator line) lines ->
  let read := readZonedDescription compile stod separator (join separator lines) in
  (forall d, describe compile stod lines d -> exists description, read = Some description /\
     forall name v, createElementInfo isMatch description name = Some v <-> first_match isMatch name d v) /\
  (read <> None -> exists d, describe compile stod lines d).
Proof.
  intros RE E compile isMatch stod c l N F read. unfold read, readZonedDescription. rewrite read_lines by (auto; lia). split.
  - intros d D. apply entries_describe in D. rewrite D. cbn [app]. eexists. split; [reflexivity|]. intros name v. symmetry. apply first_match_info.
  - intros H. destruct (entries compile stod l) as [d|] eqn:D; [|congruence]. exists d. now apply entries_describe.
Qed.
Print Assumptions C73_zones.
(** Every text is such a text of lines. *)
Theorem C73_lines : forall separator s, exists lines, lines <> [] /\ Forall (fun line => ~ In separator line) lines /\ join separator lines = s.
Proof. exact pieces. Qed.
Print Assumptions C73_lines.

(** A text that is not empty is split into pieces without separators, which together give the text again; and pieces that
    were put together are found again. *)
Theorem C73_split : forall separator,
  (forall s, s <> [] -> stringSplit s separator <> [] /\ Forall (fun p => ~ In separator p) (stringSplit s separator) /\ join separator (stringSplit s separator) = s) /\
  (forall l, l <> [] -> l <> [[]] -> Forall (fun p => ~ In separator p) l -> stringSplit (join separator l) separator = l).
Proof.
  intros c. split; [|exact (string_split c)]. intros s N. destruct (pieces c s) as [l [N1 [F J]]].
  assert (E : stringSplit s c = l). { rewrite <- J. apply string_split; auto. intros ->. cbn in J. congruence. }
  rewrite E. auto.
Qed.
Print Assumptions C73_split.

(** The description of a layer is accepted exactly if it has a name, a direction and an attenuation for each dimension,
    and gives these. *)
Theorem C73_layer : forall (E : Type) (stod : list ascii -> option (E * nat)) valid dim name cs ps ds l,
  ~ In ","%char name -> ~ In ","%char cs -> Forall (fun p => ~ In ","%char p) ps ->
  (parsePMLZoneDescription stod valid dim (join ","%char (name :: cs :: ps)) = Some (name, ds, l) <->
   name <> [] /\ length cs = dim /\ length ps = dim /\ layer stod valid cs ps ds l).
Proof.
  intros E stod valid dim name cs ps ds l Hn Hc Hp. unfold parsePMLZoneDescription, comma.
  rewrite string_split by (try discriminate; repeat (constructor; auto)).
  destruct (Nat.eqb_spec (length ps) dim) as [Lp|Lp]; cbn [andb]; [|split; [discriminate|intros [_ [_ [H _]]]; contradiction]].
  destruct (Nat.eqb_spec (length name) 0) as [Ln|Ln]; cbn [andb negb].
  - split; [discriminate|]. intros [H _]. destruct name; [congruence|discriminate].
  - destruct (Nat.eqb_spec (length cs) dim) as [Lc|Lc]; [|split; [discriminate|intros [_ [H _]]; contradiction]].
    rewrite <- (read_layer stod valid cs ps ds l) by congruence. destruct (readDirections stod valid cs ps) as [[ds' l']|]; split.
    + intros H. injection H as -> ->. repeat split; auto. intros ->. cbn in Ln. congruence.
    + intros [_ [_ [_ H]]]. injection H as -> ->. reflexivity.
    + discriminate.
    + intros [_ [_ [_ H]]]. discriminate.
Qed.
Print Assumptions C73_layer.

(** A C++ library for the examples: expressions are texts that match themselves, numbers are single digits. *)
Definition same (r s : list ascii) : bool := if list_eq_dec ascii_dec r s then true else false.
Definition digit (s : list ascii) : option (nat * nat) :=
  match s with c :: _ => if (48 <=? nat_of_ascii c) && (nat_of_ascii c <=? 57) then Some (nat_of_ascii c - 48, 1) else None | [] => None end.
Definition zoneA : list ascii := ["a"; ","]%char.
Example C73_zones_nonvacuous :
  describe (fun r => Some r) digit [zoneA ++ [","; "3"]%char; []; ["b"; ","; "4"]%char] [(zoneA, 3); (["b"]%char, 4)] /\
  match readZonedDescription (fun r => Some r) digit ";"%char ["a"; ","; ","; "3"; ";"; ";"; "b"; ","; "4"]%char with
  | Some d => createElementInfo same d ["b"]%char = Some 4 /\ createElementInfo same d zoneA = Some 3 /\ createElementInfo same d ["c"]%char = None
  | None => False end.
Proof.
  split; [|repeat split]. apply (describe_entry _ _ zoneA zoneA ["3"]%char 3); try reflexivity; [discriminate|intros [H|[]]; discriminate|].
  apply describe_empty. apply (describe_entry _ _ ["b"]%char ["b"]%char ["4"]%char 4); try reflexivity; [discriminate|intros [H|[]]; discriminate|constructor].
Qed.
Example C73_layer_nonvacuous :
  layer digit (fun n => n =? 1) ["0"; "-"]%char [["7"]; ["1"]]%char [0; -1]%Z [7; 1] /\
  parsePMLZoneDescription digit (fun n => n =? 1) 2 ["p"; ","; "0"; "-"; ","; "7"; ","; "1"]%char = Some (["p"]%char, [0; -1]%Z, [7; 1]).
Proof.
  split; [|reflexivity]. constructor; [constructor|reflexivity|congruence|]. constructor; [constructor|reflexivity|reflexivity|constructor].
Qed.
Example C73_split_nonvacuous : stringSplit ["a"; ","; ","; "b"]%char ","%char = [["a"]; []; ["b"]]%char. Proof. reflexivity. Qed.

(** Refuted: a text that is neither a number, nor inline lines, nor the name of a file is refused.  The empty text is taken
    for the number 0, which is vacuum: strtol finds no number in it, and has come to its end. *)
Theorem C73_empty_refuted : forall (RE E : Type) (compile : list ascii -> option RE) (stod : list ascii -> option (E * nat)) strtol,
  strtol [] = (0%Z, 0) -> determineStructureDescription compile stod strtol [] None = Some (Predefined 0).
Proof. intros RE E compile stod strtol H. unfold determineStructureDescription, tryParseLong. rewrite H. reflexivity. Qed.
Print Assumptions C73_empty_refuted.
(** Refuted: the materials can be in a file of any name.  A name with a comma is read as the description itself, whatever
    the file has in it. *)
Theorem C73_file_name_refuted : forall (RE E : Type) (compile : list ascii -> option RE) (stod : list ascii -> option (E * nat)) strtol input file,
  In ","%char input -> determineStructureDescription compile stod strtol input file = determineStructureDescription compile stod strtol input None.
Proof.
  intros RE E compile stod strtol input file H. unfold determineStructureDescription, comma. destruct (tryParseLong strtol input); [reflexivity|].
  assert (F : find_first_of ","%char input <> None).
  { induction input as [|x s IH]; [contradiction|]. cbn. destruct (Ascii.eqb_spec x ",") as [->|N]; [discriminate|]. destruct H as [H|H]; [contradiction|].
    specialize (IH H). destruct (find_first_of "," s); [discriminate|contradiction]. }
  destruct (find_first_of ","%char input); [reflexivity|contradiction].
Qed.
Print Assumptions C73_file_name_refuted.
