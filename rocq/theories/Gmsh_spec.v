(** The text of a Gmsh file (format 2.2) and the mesh that it describes. *)
From Coq Require Import String Ascii List Arith Bool ZArith DecimalString.
From Verif Require Import Gmsh_model CommandLine_spec.
Import ListNotations.

(** From the model only [text], [chars] and the names of characters. *)
(** * Words: [digits] and [space] are those of CommandLine_spec *)
Definition plain (w : text) : Prop := w <> [] /\ Forall (fun c => ~ space c) w.
Definition natural (n : Z) (w : text) : Prop := w <> [] /\ digits w n /\ (n < 2 ^ 64)%Z.
Inductive integer : Z -> text -> Prop :=
| positive z w : w <> [] -> digits w z -> (z < 2 ^ 31)%Z -> integer z w
| negative n w : w <> [] -> digits w n -> (n <= 2 ^ 31)%Z -> integer (- n) ("-"%char :: w).
Definition quoted (s w : text) : Prop := w = QUOTE :: s ++ [QUOTE] /\ ~ In QUOTE s /\ ~ In BACKSLASH s.

(** * Layout: words with white space between them, and lines *)
Inductive follows : list text -> text -> Prop :=
| follows_nil : follows [] []
| follows_cons sep w ws t : sep <> [] -> Forall space sep -> follows ws t -> follows (w :: ws) (sep ++ w ++ t).
Definition laid (ws : list text) (t : text) : Prop :=
  exists w ws' sep t', ws = w :: ws' /\ Forall space sep /\ follows ws' t' /\ t = sep ++ w ++ t'.
(** the end of a line before the text [r]: any of the three conventions; the last line needs none *)
Definition ending (e r : text) : Prop :=
  e = [LF] \/ e = [CR; LF] \/ (e = [CR] /\ hd_error r <> Some LF) \/ (e = [] /\ r = []).
Definition one_line (l : text) : Prop := ~ In LF l /\ ~ In CR l.
(** white space up to the start of a line *)
Definition new_line (b : text) : Prop := Forall space b /\ exists b', b = b' ++ [LF] \/ b = b' ++ [CR].

Section Format.
  Context {D : Type}.
  Variable convert : text -> option D.
  (** coordinates that are not 0 up to the tolerance *)
  Variable exceeds : D -> bool.
  Variable isVersion : D -> bool.
  Variable rounded : D -> Z.

  Definition real (x : D) (w : text) : Prop := plain w /\ convert w = Some x.

  (** * Contents of the sections *)
  Record gelement := GElement { g_number : Z; g_type : Z; g_tag : Z; g_more : list Z; g_nodes : list Z }.
  Inductive content :=
  | Names (l : list (nat * Z * text))
  | Nodes (l : list (Z * (D * D * D)))
  | Elements (l : list gelement)
  | Periodic (l : list (Z * Z * Z * list (Z * Z)))
  | Data (l : list (Z * D))
  | Other (name : text) (lines : list text)
  | Line (l : text).

  (** the words of lists *)
  Inductive all {A} (words : A -> list text -> Prop) : list A -> list text -> Prop :=
  | all_nil : all words [] []
  | all_cons a l ws ws' : words a ws -> all words l ws' -> all words (a :: l) (ws ++ ws').
  Inductive listed {A} (words : A -> list text -> Prop) (l : list A) : list text -> Prop :=
  | listed_all w ws : natural (Z.of_nat (length l)) w -> all words l ws -> listed words l (w :: ws).
  Definition one {A} (word : A -> text -> Prop) (a : A) (ws : list text) : Prop := exists w, ws = [w] /\ word a w.

  Inductive name_words : nat * Z * text -> list text -> Prop :=
  | name_word d t s wd wt ws : natural (Z.of_nat d) wd -> integer t wt -> quoted s ws ->
      name_words (d, t, s) [wd; wt; ws].
  Inductive node_words : Z * (D * D * D) -> list text -> Prop :=
  | node_word n x y z wn wx wy wz : natural n wn -> real x wx -> real y wy -> real z wz ->
      node_words (n, (x, y, z)) [wn; wx; wy; wz].
  Inductive element_words : gelement -> list text -> Prop :=
  | element_word e wn wt wk wg ws vs : natural (g_number e) wn -> natural (g_type e) wt ->
      natural (1 + Z.of_nat (length (g_more e))) wk -> natural (g_tag e) wg ->
      all (one integer) (g_more e) ws -> all (one natural) (g_nodes e) vs ->
      element_words e (wn :: wt :: wk :: wg :: ws ++ vs).
  Inductive pair_words : Z * Z -> list text -> Prop :=
  | pair_word a b wa wb : natural a wa -> natural b wb -> pair_words (a, b) [wa; wb].
  Inductive periodic_words : Z * Z * Z * list (Z * Z) -> list text -> Prop :=
  | periodic_word a b c l wa wb wc ws : natural a wa -> natural b wb -> natural c wc -> listed pair_words l ws ->
      periodic_words (a, b, c, l) (wa :: wb :: wc :: ws).
  Inductive datum_words : Z * D -> list text -> Prop :=
  | datum_word a x wa wx : natural a wa -> real x wx -> datum_words (a, x) [wa; wx].
  (** strings, reals and integers that belong to the data as a whole: a time step, 1, the number of elements, others *)
  Inductive data_words (l : list (Z * D)) : list text -> Prop :=
  | data_word (strings : list text) (reals : list D) (others : list Z) step ws1 ws2 wk wstep w1 wn ws3 ws :
      listed (one (fun s w => s = w /\ plain w)) strings ws1 -> listed (one real) reals ws2 ->
      natural (3 + Z.of_nat (length others)) wk -> natural step wstep -> natural 1 w1 ->
      natural (Z.of_nat (length l)) wn -> all (one natural) others ws3 -> all datum_words l ws ->
      data_words l (ws1 ++ ws2 ++ wk :: wstep :: w1 :: wn :: ws3 ++ ws).

  Inductive titled : content -> text -> list text -> Prop :=
  | titled_names l ws : listed name_words l ws -> titled (Names l) (chars "PhysicalNames") ws
  | titled_nodes l ws : listed node_words l ws -> titled (Nodes l) (chars "Nodes") ws
  | titled_elements l ws : listed element_words l ws -> titled (Elements l) (chars "Elements") ws
  | titled_periodic l ws : listed periodic_words l ws -> titled (Periodic l) (chars "Periodic") ws
  | titled_data l ws : data_words l ws -> titled (Data l) (chars "ElementData") ws.

  (** * The text of a file *)
  (** a section [name] with the words [ws], before the text [r] *)
  Definition section (name : text) (ws : list text) (t r : text) : Prop :=
    exists e body b e', ending e (body ++ b) /\ laid ws body /\ new_line b /\ ending e' r /\
      t = (chars "$" ++ name) ++ e ++ body ++ b ++ (chars "$End" ++ name) ++ e'.
  (** lines up to the end of a section *)
  Inductive lines_text : list text -> text -> text -> Prop :=
  | lines_nil r : lines_text [] [] r
  | lines_cons l ls e t r : ending e (t ++ r) -> lines_text ls t r -> lines_text (l :: ls) (l ++ e ++ t) r.
  Inductive written : list content -> text -> Prop :=
  | written_end : written [] []
  | written_section c name ws cs t r : titled c name ws -> section name ws t r -> written cs r -> written (c :: cs) (t ++ r)
  | written_other name ls cs e t e' r : ending e (t ++ (chars "$End" ++ name) ++ e' ++ r) ->
      lines_text ls t ((chars "$End" ++ name) ++ e' ++ r) -> ending e' r -> written cs r ->
      written (Other name ls :: cs) ((chars "$" ++ name) ++ e ++ t ++ (chars "$End" ++ name) ++ e' ++ r)
  | written_line l cs e r : ending e r -> written cs r -> written (Line l :: cs) (l ++ e ++ r).
  (** the whole file starts with its format *)
  Definition file (cs : list content) (t : text) : Prop :=
    exists v wv w0 wd size h r, real v wv /\ isVersion v = true /\ integer 0 w0 /\ integer size wd /\
      section (chars "MeshFormat") [wv; w0; wd] h r /\ written cs r /\ t = h ++ r.

  (** * What it describes *)
  Record description := Describe {
    d_names : list (nat * Z * text);
    d_nodes : list (Z * (D * D * D));
    d_elements : list gelement;
    d_periodic : list (list (Z * Z)) }.
  (** values of elements replace their tags when no names have been given before *)
  Definition retag (e : gelement) (l : list (Z * D)) : gelement :=
    fold_left (fun e p => if (fst p =? g_number e)%Z
                          then GElement (g_number e) (g_type e) (rounded (snd p)) (g_more e) (g_nodes e) else e) l e.
  Definition add (d : description) (c : content) : description :=
    match c with
    | Names l => Describe (d_names d ++ l) (d_nodes d) (d_elements d) (d_periodic d)
    | Nodes l => Describe (d_names d) (d_nodes d ++ l) (d_elements d) (d_periodic d)
    | Elements l => Describe (d_names d) (d_nodes d) (d_elements d ++ l) (d_periodic d)
    | Periodic l => Describe (d_names d) (d_nodes d) (d_elements d) (map snd l)
    | Data l => Describe (d_names d) (d_nodes d) (map (fun e => retag e l) (d_elements d)) (d_periodic d)
    | Other _ _ | Line _ => d
    end.
  Definition described (cs : list content) : description := fold_left add cs (Describe [] [] [] []).

  (** the types of elements of hpGEM: dimension and the order of the nodes of Gmsh *)
  Definition shape (t : Z) : option (nat * list nat) :=
    match t with
    | 15 => Some (0%nat, [0%nat])
    | 1 => Some (1%nat, [0; 1]%nat)
    | 8 => Some (1%nat, [0; 2; 1]%nat)
    | 2 => Some (2%nat, [0; 1; 2]%nat)
    | 9 => Some (2%nat, [0; 3; 1; 5; 4; 2]%nat)
    | 3 => Some (2%nat, [0; 1; 3; 2]%nat)
    | 7 => Some (3%nat, [4; 1; 2; 0; 3]%nat)
    | 5 => Some (3%nat, [4; 5; 0; 1; 7; 6; 3; 2]%nat)
    | 6 => Some (3%nat, [0; 2; 1; 3; 5; 4]%nat)
    | 11 => Some (3%nat, [0; 4; 1; 6; 5; 2; 7; 9; 8; 3]%nat)
    | _ => None
    end%Z.

  (** files that make sense: nodes and elements are counted from 1, elements have a known type and that many nodes *)
  Definition sensible (d : description) (c : content) : Prop :=
    match c with
    | Names l => Forall (fun p => fst (fst p) <= 3 /\ snd (fst p) <> (- 2 ^ 31)%Z) l
    | Nodes l => Forall (fun p => (1 <= fst p)%Z) l
    | Elements l =>
        (forall i e, nth_error l i = Some e -> g_number e = Z.of_nat (length (d_elements d) + i + 1)) /\
        Forall (fun e => (exists dim order, shape (g_type e) = Some (dim, order) /\ length (g_nodes e) = length order) /\
                         Forall (fun n => (1 <= n)%Z) (g_nodes e) /\ (0 <= g_tag e < 2 ^ 64 - 1)%Z) l
    | Periodic l => d_periodic d = [] /\ Forall (fun p => Forall (fun q => (1 <= fst q)%Z /\ (1 <= snd q)%Z) (snd p)) l
    | Data l => d_names d = [] /\ Forall (fun p => (1 <= fst p <= Z.of_nat (length (d_elements d)))%Z /\
                                                   (0 <= rounded (snd p) < 2 ^ 64 - 1)%Z) l
    | Other name lines =>
        (~ In name (map chars ["MeshFormat"; "PhysicalNames"; "Nodes"; "Elements"; "Periodic"; "ElementData"]%string) \/
         (name = chars "ElementData" /\ d_names d <> [])) /\
        one_line name /\ Forall (fun l => one_line l /\ firstn 4 l <> chars "$End") lines
    | Line l => one_line l /\ hd_error l <> Some "$"%char
    end.
  Inductive all_sensible : description -> list content -> Prop :=
  | sensible_nil d : all_sensible d []
  | sensible_cons d c cs : sensible d c -> all_sensible (add d c) cs -> all_sensible d (c :: cs).

  (** the dimension: that of the names, or more if the nodes need more *)
  Definition needed (p : D * D * D) : nat :=
    let '(x, y, z) := p in if exceeds z then 3 else if exceeds y then 2 else if exceeds x then 1 else 0.
  Definition dimension_of (d : description) : nat :=
    list_max (map (fun p => fst (fst p)) (d_names d) ++ map (fun p => needed (snd p)) (d_nodes d)).
  Definition position (dim : nat) (p : D * D * D) : list D := let '(x, y, z) := p in firstn dim [x; y; z].

  (** the zone of an element of the highest dimension: the name of its group (the last that is given), or its number *)
  Definition zone (d : description) (tag : Z) : text :=
    match d_names d with
    | [] => chars (NilZero.string_of_uint (N.to_uint (Z.to_N tag)))
    | _ => match find (fun p => (fst (fst p) =? dimension_of d) && (Z.abs (snd (fst p)) =? tag)%Z)%bool (rev (d_names d)) with
           | Some (_, s) => s
           | None => []
           end
    end.
  (** the last value for a key *)
  Definition assigned (l : list (Z * Z)) (k : Z) : option Z :=
    option_map snd (find (fun p => (fst p =? k)%Z) (rev l)).
End Format.
