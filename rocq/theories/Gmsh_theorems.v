(** C67: a Gmsh file gives the mesh that it describes. *)
From Coq Require Import String Ascii List Arith Bool ZArith Lia.
From Verif Require Import StdMap_model Reorder_model Gmsh_model Gmsh_spec CommandLine_spec Gmsh_proofs GmshSections_proofs GmshFile_proofs.
Import ListNotations.

(** ** Whatever white space and line ends it is written with, a sensible file gives: the highest dimension of its names and
    nodes; its nodes in their order, counted from 0, with that many coordinates; its elements of that dimension in their
    order, with the nodes in the order of hpGEM, and in the zone of their group; and its pairs of periodic nodes. *)
Theorem C67_file : forall (D : Type) (convert : text -> option D) exceeds isVersion rounded zero cs t,
  file convert isVersion cs t -> all_sensible rounded (Describe [] [] [] []) cs ->
  let d := described rounded cs in
  let k := dimension_of exceeds d in
  let top := filter (fun e => match shape (g_type e) with Some (j, _) => j =? k | None => false end) (d_elements d) in
  d_names d = [] \/ In k (map (fun p => fst (fst p)) (d_names d)) ->
  exists m, readGmsh convert exceeds isVersion rounded zero t = Some m /\
    m_dimension m = k /\
    m_nodes m = map (fun p => ((fst p - 1)%Z, position k (snd p))) (d_nodes d) /\
    (length (m_elements m) = length top /\
     forall i e, nth_error top i = Some e -> exists order, shape (g_type e) = Some (k, order) /\
       nth_error (m_elements m) i = Some (Element i (map (fun j => (nth j (g_nodes e) 0 - 1)%Z) order) (zone exceeds d (g_tag e)) k)) /\
    Forall2 (fun l merge => forall a : Z, mfind Z.ltb (a - 1)%Z merge = option_map (fun b => (b - 1)%Z) (assigned l a)) (d_periodic d) (m_merges m).
Proof.
  intros D convert exceeds isVersion rounded zero cs t F G d k top C.
  destruct (file_ok convert exceeds isVersion rounded zero cs t F G C) as (m & M1 & M2 & M3 & M4 & M5 & M6).
  fold d in M2, M3, M4, M5, M6. fold k in M2, M3, M6.
  assert (T : top = GmshFile_proofs.top exceeds d /\ forall e, In e top -> exists order, shape (g_type e) = Some (k, order)).
  { assert (K : Forall known (d_elements d)) by (eapply known_described; eassumption).
    unfold top, GmshFile_proofs.top. fold k. split.
    - apply filter_ext_in. intros e He. rewrite Forall_forall in K. destruct (K e He) as (K1 & _). unfold dim_of.
      now destruct (shape (g_type e)) as [[j o]|].
    - intros e He. apply filter_In in He. destruct He as (_ & He). destruct (shape (g_type e)) as [[j o]|]; [|discriminate].
      apply Nat.eqb_eq in He. subst j. now exists o. }
  destruct T as (T1 & T2). exists m. split; [exact M1|]. split; [exact M2|]. split; [exact M3|]. split.
  - rewrite T1. split; [exact M5|]. intros i e He. rewrite <- T1 in He. destruct (T2 e (nth_error_In _ _ He)) as (o & Ho). exists o.
    split; [exact Ho|]. rewrite T1 in He. rewrite (M6 i e He). unfold order_of. now rewrite Ho.
  - clear - M4. induction M4 as [|l ms L M H _ IH]; constructor; [|exact IH]. intros a. rewrite (H (a - 1)%Z). now replace (a - 1 + 1)%Z with a by lia.
Qed.
Print Assumptions C67_file.

(** *** Examples: integers for the coordinates; words with single spaces, and all kinds of line ends *)
Definition e_convert (w : text) : option Z := if same w (chars "2.2") then Some 22%Z else toInt w.
Definition e_read : text -> option (@mesh Z) := readGmsh e_convert (fun x => negb (x =? 0)%Z) (fun x => (x =? 22)%Z) (fun x => x) 0%Z.
Definition e_lay (ws : list text) : text := match ws with [] => [] | w :: ws => w ++ concat (map (fun w => " "%char :: w) ws) end.
Definition e_section (name : text) (ws : list text) : text :=
  (chars "$" ++ name) ++ [CR; LF] ++ e_lay ws ++ [" "%char; CR; LF; LF] ++ (chars "$End" ++ name) ++ [CR].
Lemma e_laid : forall w ws, laid (w :: ws) (e_lay (w :: ws)).
Proof.
  intros w ws. exists w, ws, [], (concat (map (fun w => " "%char :: w) ws)). split; [reflexivity|]. split; [constructor|]. split; [|reflexivity].
  induction ws as [|v ws IH]; [constructor|]. apply (follows_cons [" "%char]); [discriminate| |exact IH]. repeat constructor.
Qed.
Lemma e_section_ok : forall name w ws r, hd_error r <> Some LF -> section name (w :: ws) (e_section name (w :: ws)) r.
Proof.
  intros name w ws r R. exists [CR; LF], (e_lay (w :: ws)), [" "%char; CR; LF; LF], [CR]. split; [right; now left|]. split; [apply e_laid|].
  split; [|split; [right; right; left; now split|reflexivity]]. split; [repeat constructor; cbv; tauto|]. exists [" "%char; CR; LF]. now left.
Qed.
Lemma e_natural : forall d, d <= 9 -> natural (Z.of_nat d) [ascii_of_nat (48 + d)].
Proof.
  intros d H. split; [discriminate|]. split; [|lia]. exact (digits_more [] 0 d digits_none H).
Qed.
Lemma e_integer : forall d, d <= 9 -> integer (Z.of_nat d) [ascii_of_nat (48 + d)].
Proof. intros d H. apply positive; [discriminate| |lia]. exact (digits_more [] 0 d digits_none H). Qed.
Lemma e_minus : forall d, d <= 9 -> integer (- Z.of_nat d) ["-"%char; ascii_of_nat (48 + d)].
Proof. intros d H. apply negative; [discriminate| |lia]. exact (digits_more [] 0 d digits_none H). Qed.
Lemma e_real : forall d, d <= 9 -> real e_convert (Z.of_nat d) [ascii_of_nat (48 + d)].
Proof.
  intros d H. split; [split; [discriminate|constructor; [now apply CommandLine_proofs.not_space_digit|constructor]]|].
  do 10 (destruct d; [reflexivity|]). lia.
Qed.
Ltac e_word :=
  match goal with
  | |- natural ?z _ => let d := eval vm_compute in (Z.to_nat z) in exact (e_natural d ltac:(lia))
  | |- integer (Z.neg ?p) _ => let d := eval vm_compute in (Z.to_nat (Z.pos p)) in exact (e_minus d ltac:(lia))
  | |- integer ?z _ => let d := eval vm_compute in (Z.to_nat z) in exact (e_integer d ltac:(lia))
  | |- real _ ?z _ => let d := eval vm_compute in (Z.to_nat z) in exact (e_real d ltac:(lia))
  | |- quoted _ _ => split; [reflexivity|split; cbv; intuition discriminate]
  | |- one _ _ _ => eexists; split; [reflexivity|e_word]
  end.
Ltac e_words := repeat (first [e_word | eapply listed_all | eapply all_cons | eapply all_nil | econstructor]).
Ltac e_part := eapply written_section; [econstructor; e_words|apply e_section_ok; shelve|].

Definition e_names : @content Z := Names [(1, 3%Z, chars "side"); (2, (-7)%Z, chars "a b"); (2, 5%Z, chars "rest")].
Definition e_nodes : @content Z := Nodes [(1, (0, 0, 0)); (2, (1, 0, 0)); (3, (1, 1, 0)); (4, (0, 1, 0)); (5, (2, 0, 0))]%Z.
Definition e_elements : @content Z := Elements [GElement 1 1 3 [1] [1; 2]; GElement 2 3 7 [1; -2] [1; 2; 3; 4]; GElement 3 2 4 [] [2; 5; 3]]%Z.
Definition e_periodic : @content Z := Periodic [(1, 2, 3, [(1, 2); (4, 3); (4, 5)])]%Z.
Definition e_file : list (@content Z) :=
  [e_names; Line (chars "no section"); e_nodes; Other (chars "Comments") [chars "$Nodes"; chars " x"]; e_elements; e_periodic; Line []].
Lemma e_written : exists t, file e_convert (fun x => (x =? 22)%Z) e_file t /\
  option_map (fun m => (m_dimension m, m_nodes m, map (fun e => (id e, coordinateIds e, zoneName e, e_dimension e)) (m_elements m), m_merges m)) (e_read t) =
    Some (2, [(0, [0; 0]); (1, [1; 0]); (2, [1; 1]); (3, [0; 1]); (4, [2; 0])]%Z,
          [(0, [0; 1; 3; 2]%Z, chars "a b", 2); (1, [1; 4; 2]%Z, [], 2)], [[(0, 1); (3, 4)]]%Z).
Proof.
  eexists. split.
  - exists 22%Z, (chars "2.2"), (chars "0"), (chars "8"), 8%Z. eexists. eexists.
    split; [split; [split; [discriminate|repeat constructor; cbv; intuition discriminate]|reflexivity]|]. split; [reflexivity|]. split; [e_word|]. split; [e_word|].
    split; [|split; [|reflexivity]]; [apply e_section_ok; shelve|].
    e_part. eapply (written_line _ (chars "no section") _ [LF]); [now left|]. e_part.
    eapply (written_other _ (chars "Comments") _ _ [LF] _ [LF]); [now left| |now left|].
    + eapply (lines_cons (chars "$Nodes") _ [CR; LF]); [right; now left|]. eapply (lines_cons (chars " x") _ [LF]); [now left|]. apply lines_nil.
    + e_part. e_part. eapply (written_line _ [] _ []); [right; right; right; now split|]. apply written_end.
  - vm_compute. reflexivity.
  Unshelve. all: discriminate.
Qed.

Ltac e_sensible := repeat (apply sensible_cons; [|cbn [Gmsh_spec.add d_names d_nodes d_elements d_periodic app map]]); [..|apply sensible_nil].
Lemma e_numbers : forall n (l : list gelement), map g_number l = map (fun i => Z.of_nat (n + i + 1)) (seq 0 (length l)) ->
  forall i e, nth_error l i = Some e -> g_number e = Z.of_nat (n + i + 1).
Proof.
  intros n l H i e E. assert (L : i < length l) by (apply nth_error_Some; congruence).
  pose proof (f_equal (fun l => nth_error l i) H) as X. cbn beta in X. rewrite nth_error_map, E, nth_error_map in X. cbn in X.
  rewrite (nth_error_nth' _ 0) in X by (now rewrite seq_length). rewrite seq_nth in X by exact L. now injection X.
Qed.
Ltac e_part_sensible :=
  match goal with
  | |- Gmsh_spec.sensible _ _ (Elements _) => split; [apply e_numbers; reflexivity|repeat (constructor; [split; [eexists; eexists; split; reflexivity|split; [repeat (constructor; try lia)|cbn; lia]]|]); constructor]
  | |- Gmsh_spec.sensible _ _ (Names _) => repeat (constructor; [cbn; split; [lia|discriminate]|]); constructor
  | |- Gmsh_spec.sensible _ _ (Nodes _) => repeat (constructor; [cbn; lia|]); constructor
  | |- Gmsh_spec.sensible _ _ (Periodic _) => split; [reflexivity|repeat (constructor; [repeat (constructor; [cbn; lia|]); constructor|]); constructor]
  | |- Gmsh_spec.sensible _ _ (Data _) => split; [reflexivity|repeat (constructor; [cbn; lia|]); constructor]
  | |- Gmsh_spec.sensible _ _ (Line _) => split; [split; cbv; intuition discriminate|discriminate]
  | |- Gmsh_spec.sensible _ _ (Other _ _) => split; [left; cbv; intuition discriminate|split; [split; cbv; intuition discriminate|repeat (constructor; [split; [split; cbv; intuition discriminate|discriminate]|]); constructor]]
  end.
Lemma e_all_sensible : all_sensible (fun x : Z => x) (Describe [] [] [] []) e_file.
Proof. unfold e_file, e_names, e_nodes, e_elements, e_periodic. e_sensible; e_part_sensible. Qed.
Example C67_file_nonvacuous : exists t, file e_convert (fun x => (x =? 22)%Z) e_file t /\
  all_sensible (fun x : Z => x) (Describe [] [] [] []) e_file /\
  In (dimension_of (fun x => negb (x =? 0)%Z) (described (fun x => x) e_file)) (map (fun p => fst (fst p)) (d_names (described (fun x => x) e_file))) /\
  option_map (fun m => (m_dimension m, m_nodes m, map (fun e => (id e, coordinateIds e, zoneName e, e_dimension e)) (m_elements m), m_merges m)) (e_read t) =
    Some (2, [(0, [0; 0]); (1, [1; 0]); (2, [1; 1]); (3, [0; 1]); (4, [2; 0])]%Z,
          [(0, [0; 1; 3; 2]%Z, chars "a b", 2); (1, [1; 4; 2]%Z, [], 2)], [[(0, 1); (3, 4)]]%Z).
Proof. destruct e_written as (t & F & R). exists t. split; [exact F|]. split; [exact e_all_sensible|]. split; [cbn; tauto|exact R]. Qed.

(** zones by the values of the elements: there are no names *)
Definition e_data : list (@content Z) :=
  [Nodes [(1, (0, 0, 0)); (2, (1, 0, 0)); (3, (2, 0, 0))]; Elements [GElement 1 1 3 [1] [1; 2]; GElement 2 1 7 [1] [2; 3]]; Data [(2, 9); (1, 4); (2, 8)]]%Z.
Example C67_file_data_nonvacuous : exists t, file e_convert (fun x => (x =? 22)%Z) e_data t /\
  all_sensible (fun x : Z => x) (Describe [] [] [] []) e_data /\
  d_names (described (fun x => x) e_data) = [] /\
  option_map (fun m => (m_dimension m, map (fun e => (id e, coordinateIds e, zoneName e, e_dimension e)) (m_elements m))) (e_read t) =
    Some (1, [(0, [0; 1]%Z, chars "4", 1); (1, [1; 2]%Z, chars "8", 1)]).
Proof.
  eexists. split; [|split; [unfold e_data; e_sensible; e_part_sensible|split; [reflexivity|]]].
  - exists 22%Z, (chars "2.2"), (chars "0"), (chars "8"), 8%Z. eexists. eexists.
    split; [split; [split; [discriminate|repeat constructor; cbv; intuition discriminate]|reflexivity]|]. split; [reflexivity|]. split; [e_word|]. split; [e_word|].
    split; [|split; [|reflexivity]]; [apply e_section_ok; shelve|].
    e_part. e_part.
    eapply written_section; [apply titled_data; eapply (data_word _ _ [chars "view"] [0%Z] [0%Z] 0%Z [chars "1"; chars "view"])|apply e_section_ok; shelve|apply written_end].
    + eapply (listed_all _ _ (chars "1") [chars "view"]); [e_word|]. apply (all_cons _ _ _ [chars "view"] []); [|apply all_nil]. exists (chars "view"). split; [reflexivity|]. split; [reflexivity|]. split; [discriminate|repeat constructor; cbv; intuition discriminate].
    + e_words.
    + e_word.
    + e_word.
    + e_word.
    + e_word.
    + e_words.
    + e_words.
  - vm_compute. reflexivity.
  Unshelve. all: discriminate.
Qed.

(** ** Only text files of version 2.2 are read: a file that starts with the section MeshFormat and in it another version or
    another type is refused, whatever follows. *)
Theorem C67_version : forall (D : Type) (convert : text -> option D) exceeds isVersion rounded zero e sep wv s1 w0 s2 wd r v kind size,
  e = [LF] \/ e = [CR; LF] -> Forall space sep -> real convert v wv ->
  s1 <> [] -> Forall space s1 -> integer kind w0 -> s2 <> [] -> Forall space s2 -> integer size wd -> (exists c r', r = c :: r' /\ space c) ->
  isVersion v = false \/ kind <> 0%Z ->
  readGmsh convert exceeds isVersion rounded zero (chars "$MeshFormat" ++ e ++ sep ++ wv ++ s1 ++ w0 ++ s2 ++ wd ++ r) = None.
Proof.
  intros D convert exceeds isVersion rounded zero e sep wv s1 w0 s2 wd r v kind size E Ss V N1 S1 I0 N2 S2 I1 M C.
  unfold readGmsh. set (s := Stream _ false). assert (Q : exists fuel, enough s = S fuel) by (unfold enough; eexists; rewrite Nat.add_comm; reflexivity).
  destruct Q as (fuel & ->). unfold s. cbn [readSections eof snd].
  change (chars "$MeshFormat") with (chars "$" ++ chars "MeshFormat"). rewrite (title_line (chars "MeshFormat") e); [|split; cbv; intuition discriminate|destruct E; [now left|right; now left]].
  cbn [fst snd]. change (Ascii.eqb DOLLAR DOLLAR) with true. cbn [negb must bind]. change (same (chars "MeshFormat") (chars "MeshFormat")) with true. cbv iota.
  unfold readHeader. fold (more r) in M. rea. int. int.
  destruct C as [C|C].
  - rewrite C. reflexivity.
  - destruct (isVersion v); [|reflexivity]. cbn [must bind]. destruct (Z.eqb_spec kind 0); [contradiction|reflexivity].
Qed.
Print Assumptions C67_version.
Example C67_version_nonvacuous : real e_convert 4%Z (chars "4") /\ integer 0 (chars "0") /\ (4 =? 22)%Z = false /\
  e_read (chars "$MeshFormat" ++ [LF] ++ chars "4 0 8" ++ [LF] ++ chars "$EndMeshFormat") = None /\
  e_read (chars "$MeshFormat" ++ [LF] ++ chars "2.2 0 8" ++ [LF] ++ chars "$EndMeshFormat") <> None.
Proof. split; [exact (e_real 4 ltac:(lia))|]. split; [exact (e_integer 0 ltac:(lia))|]. split; [reflexivity|]. split; vm_compute; [reflexivity|discriminate]. Qed.

(** ** Where it is not so: names for groups of a lower dimension only. The vector of names is read out of range. *)
Theorem C67_lower_names_refuted : exists cs t, file e_convert (fun x => (x =? 22)%Z) cs t /\
  all_sensible (fun x : Z => x) (Describe [] [] [] []) cs /\ e_read t = None.
Proof.
  exists [Names [(1, 3%Z, chars "side")]; Nodes [(1, (0, 0, 0)); (2, (1, 0, 0)); (3, (0, 1, 0))]%Z; Elements [GElement 1 2 7 [1] [1; 2; 3]]%Z].
  eexists. split; [|split; [e_sensible; e_part_sensible|]].
  - exists 22%Z, (chars "2.2"), (chars "0"), (chars "8"), 8%Z. eexists. eexists.
    split; [split; [split; [discriminate|repeat constructor; cbv; intuition discriminate]|reflexivity]|]. split; [reflexivity|]. split; [e_word|]. split; [e_word|].
    split; [|split; [|reflexivity]]; [apply e_section_ok; shelve|]. e_part. e_part. e_part. apply written_end.
  - vm_compute. reflexivity.
  Unshelve. all: discriminate.
Qed.
Print Assumptions C67_lower_names_refuted.

(** ** Elements without tags cannot be read, although there is a zone for them: their other tags are counted from -1, which
    is the largest size_t, and no file is that long. *)
Theorem C67_no_tags_refuted : forall (D : Type) reorder (st : @reader D) s1 wn s2 wt s3 w0 n t r,
  Forall space s1 -> natural n wn -> s2 <> [] -> Forall space s2 -> natural t wt -> s3 <> [] -> Forall space s3 -> natural 0 w0 ->
  (exists c r', r = c :: r' /\ space c) -> (Z.of_nat (length r) < 2 ^ 64 - 1)%Z ->
  readElement reorder (st, Stream (s1 ++ wn ++ s2 ++ wt ++ s3 ++ w0 ++ r) false) = None.
Proof.
  intros D reorder st s1 wn s2 wt s3 w0 n t r S1 Hn N2 S2 Ht N3 S3 H0 M L. fold (more r) in M. unfold readElement. cbn [fst snd]. size. size. size.
  destruct (elementType t) as [info|]; [|reflexivity]. cbn [bind]. destruct (Z.eqb _ _); [|reflexivity]. cbn [must bind Z.ltb Z.compare].
  match goal with |- context [times ?k skipInt ?s] => destruct (times k skipInt s) as [s'|] eqn:E end; [|reflexivity].
  exfalso. assert (X : forall k s s', times k skipInt s = Some s' -> k <= length (rest s)).
  { clear. induction k as [|k IH]; intros s s' E; [lia|]. cbn [times] in E. destruct (skipInt s) as [s1|] eqn:E1; [|discriminate]. cbn [bind] in E.
    apply IH in E. cut (length (rest s1) < length (rest s)); [lia|]. clear E IH s'. unfold skipInt, readInt in E1.
    destruct (extract s) as [(w, s2)|] eqn:E2; [|discriminate]. cbn [bind fst snd] in E1. destruct (toInt w); [|discriminate]. injection E1 as <-.
    unfold extract in E2. destruct (eof s); [discriminate|].
    assert (SP : forall t, length (fst (span t)) + length (snd (span t)) = length t).
    { induction t as [|c t IH]; [reflexivity|]. cbn [span]. destruct (isSpace c); [reflexivity|]. cbn [fst snd length]. lia. }
    assert (SK : forall t, length (skipSpace t) <= length t).
    { induction t as [|c t IH]; [reflexivity|]. cbn [CommandLine_model.skipSpace]. destruct (isSpace c); cbn [length]; lia. }
    specialize (SP (skipSpace (rest s))). specialize (SK (rest s)). destruct (span (skipSpace (rest s))) as (a, b). cbn [fst snd] in *.
    destruct a as [|c a]; [discriminate|]. injection E2 as _ <-. cbn [rest] in *. cbn [length] in SP. lia. }
  apply X in E. cbn [rest] in E. apply Nat2Z.inj_le in E. rewrite Z2Nat.id in E by (vm_compute; discriminate).
  assert (P : predecessor 0 = (2 ^ 64 - 1)%Z) by reflexivity. rewrite P in E. apply (Z.lt_irrefl (2 ^ 64 - 1)). eapply Z.le_lt_trans; eassumption.
Qed.
Print Assumptions C67_no_tags_refuted.
Example C67_no_tags_nonvacuous : natural 0 (chars "0") /\ natural 1 (chars "1") /\ elementType 1 = Some (1, 2) /\ chars "Main" <> [].
Proof. split; [exact (e_natural 0 ltac:(lia))|]. split; [exact (e_natural 1 ltac:(lia))|]. split; [reflexivity|discriminate]. Qed.

(** ** A file that ends inside a section is accepted, whatever the section: the check for it is about a text, not a condition. *)
Theorem C67_unclosed_refuted : forall (D : Type) (convert : text -> option D) exceeds isVersion rounded st l ws t b,
  laid ws t -> listed (node_words convert) l ws -> Forall (fun p => (1 <= fst p)%Z) l -> new_line b ->
  exists st', readNodes convert exceeds (st, Stream (t ++ b) false) = Some (st', Stream [] true) /\
    length (nodes st') = length (nodes st) + length l /\
    (exists fuel, readSections convert exceeds isVersion rounded fuel true (st', Stream [] true) = Some st').
Proof.
  intros D convert exceeds isVersion rounded st l ws t b L H G B.
  destruct (laid_listed _ _ _ _ b H L) as (ws' & t' & W & F & S); [rewrite <- (app_nil_r b); now apply new_line_more|].
  assert (Mb : more b) by (rewrite <- (app_nil_r b); now apply new_line_more).
  unfold readNodes. cbn [fst snd]. rewrite S. cbn [bind fst snd]. rewrite Nat2Z.id.
  destruct (times_words (node_words convert) (fun pre st' => length (nodes st') = length (nodes st) + length pre) (fun _ p => (1 <= fst p)%Z) (readNode convert exceeds)) with (l := l) (st := st) (ws := ws') (t := t') (r := b)
    as (st' & E1 & R1); try assumption.
  - intros pre p st0 ws0 t0 r0 N R0 W0 F0 M0. destruct W0 as [n x y z wn wx wy wz Hn Hx Hy Hz]. do 4 next. last.
    unfold readNode. cbn [fst snd]. rewrite app_nil_r, <- !app_assoc. size. rea. rea. rea. eexists. split; [reflexivity|].
    cbn [nodes]. rewrite !app_length, R0. cbn. lia.
  - apply (forall_split _ _ G).
  - cbn. lia.
  - rewrite E1. cbn [bind fst snd].
    assert (X : forall fuel b, b = [] \/ new_line b -> length b + 1 < fuel -> readSectionEnd fuel (chars "Nodes") (Stream b false) = Some (Stream [] true)).
    { clear. induction fuel as [|fuel IH]; intros b B Fu; [lia|]. cbn [readSectionEnd eof]. destruct B as [->|B].
      - destruct fuel; [cbn in Fu; lia|]. reflexivity.
      - destruct (blank_line b [] B) as (l & b' & A1 & A2 & A3 & A4); [discriminate|]. rewrite !app_nil_r in A4. rewrite A4. cbn [fst snd]. rewrite (forallb_space l A1).
        apply IH; [exact A2|lia]. }
    rewrite X; [|now right|unfold enough; cbn [rest]; lia]. exists st'. split; [reflexivity|]. split; [exact R1|]. now exists 1.
Qed.
Print Assumptions C67_unclosed_refuted.
Example C67_unclosed_nonvacuous : option_map (@m_nodes Z) (e_read (chars "$MeshFormat" ++ [LF] ++ chars "2.2 0 8" ++ [LF] ++ chars "$EndMeshFormat" ++ [LF] ++
  chars "$Nodes" ++ [LF] ++ chars "1" ++ [LF] ++ chars "1 5 0 0" ++ [LF])) = Some [(0, [5])]%Z.
Proof. vm_compute. reflexivity. Qed.

(** ** The sign of the number of a group is dropped for the names but not for the elements: an element of the reversed group
    -7 is in a zone without name, although -7 and 7 both have that name. *)
Theorem C67_reversed_refuted : exists t, e_read t <> None /\
  t = chars "$MeshFormat" ++ [LF] ++ chars "2.2 0 8" ++ [LF] ++ chars "$EndMeshFormat" ++ [LF] ++
    chars "$PhysicalNames" ++ [LF] ++ chars "1" ++ [LF] ++ chars "1 -7 " ++ [QUOTE] ++ chars "wire" ++ [QUOTE] ++ [LF] ++ chars "$EndPhysicalNames" ++ [LF] ++
    chars "$Nodes" ++ [LF] ++ chars "3 1 0 0 0 2 1 0 0 3 2 0 0" ++ [LF] ++ chars "$EndNodes" ++ [LF] ++
    chars "$Elements" ++ [LF] ++ chars "2" ++ [LF] ++ chars "1 1 2 7 1 1 2" ++ [LF] ++ chars "2 1 2 -7 1 2 3" ++ [LF] ++ chars "$EndElements" ++ [LF] /\
  option_map (fun m => map zoneName (m_elements m)) (e_read t) = Some [chars "wire"; []].
Proof. eexists. split; [|split; [reflexivity|]]; vm_compute; [discriminate|reflexivity]. Qed.
Print Assumptions C67_reversed_refuted.
