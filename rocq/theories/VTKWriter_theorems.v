(** C60: what VTK reads from the output is the mesh and the fields. *)
From Coq Require Import List Arith NArith Bool Lia Reals Lra String Ascii.
From Verif Require Import RefGeometry_model Curvilinear_model VTKElements_model VTKElements_spec VTKElements_theorems Base64_model Base64_spec
  VTKWriter_model VTKWriter_spec VTKWriter_proofs VTKFields_proofs.
Import ListNotations.
Local Open Scope list_scope.
Local Open Scope nat_scope.

(** The types of VTK (vtkCellType.h) for the shapes, for order 1 and for a higher order, and the points in the order of VTK.
    The points are those of C59. *)
Definition vtk_cell (s : shape) (order : nat) (v : vtkElement) : Prop :=
  match s with
  | Point => vtkId v = 1 /\ getPoints v = vtkPoint
  | Line => vtkId v = (if order =? 1 then 3 else 68) /\ curve order = Some (getPoints v)
  | Triangle => vtkId v = (if order =? 1 then 5 else 69) /\ triangle order = Some (getPoints v)
  | Square => vtkId v = (if order =? 1 then 9 else 70) /\ quadrilateral order = Some (getPoints v)
  | Tetrahedron => vtkId v = (if order =? 1 then 10 else 71) /\ tetrahedron order = Some (getPoints v)
  | Cube => vtkId v = (if order =? 1 then 12 else 72) /\ hexahedron order = Some (getPoints v)
  | TriangularPrism => order = 1 /\ vtkId v = 13 /\ getPoints v = vtkWedge
  | Pyramid => order = 1 /\ vtkId v = 14 /\ getPoints v = vtkPyramid
  | Hypercube => False
  end.
Theorem C60_mapping : forall dim order, dim <= 3 -> 1 <= order -> exists m, setupMapping dim order = Some m /\
  (forall s v, find s m = Some v -> vtk_cell s order v) /\
  (forall s, In s (match dim with 0 => [Point] | 1 => [Line] | 2 => [Triangle; Square] | _ => [Tetrahedron; Cube] end) -> find s m <> None) /\
  (dim = 3 -> order = 1 -> find TriangularPrism m <> None /\ find Pyramid m <> None).
Proof.
  intros dim order Hd Ho.
  destruct C59_standard as ((S1 & S2 & S3 & S4 & S5) & _).
  destruct dim as [|[|[|[|dim]]]]; [| | | |lia]; unfold setupMapping.
  - eexists. split; [reflexivity|]. split; [|split].
    + intros [] v E; cbn in E; try discriminate. injection E as <-. split; reflexivity.
    + intros s [<-|[]]. discriminate.
    + discriminate.
  - destruct (Nat.eqb_spec order 1) as [->|Ne].
    + eexists. split; [reflexivity|]. split; [|split].
      * intros [] v E; cbn in E; try discriminate. injection E as <-. split; [reflexivity|exact S1].
      * intros s [<-|[]]. discriminate.
      * discriminate.
    + destruct (C59_curve order Ho) as (pc & Ec & _). rewrite Ec. cbn [lagrange option_map all_some].
      eexists. split; [reflexivity|]. apply Nat.eqb_neq in Ne. split; [|split].
      * intros [] v E; cbn in E; try discriminate. injection E as <-. unfold vtk_cell. rewrite Ne. split; [reflexivity|exact Ec].
      * intros s [<-|[]]. discriminate.
      * discriminate.
  - destruct (Nat.eqb_spec order 1) as [->|Ne].
    + eexists. split; [reflexivity|]. split; [|split].
      * intros [] v E; cbn in E; try discriminate; injection E as <-; split; first [exact S4|exact S2|reflexivity].
      * intros s [<-|[<-|[]]]; discriminate.
      * discriminate.
    + destruct (C59_triangle order Ho) as (pt & Et & _), (C59_quadrilateral order Ho) as (pq & Eq & _). rewrite Et, Eq. cbn [lagrange option_map all_some].
      eexists. split; [reflexivity|]. apply Nat.eqb_neq in Ne. split; [|split].
      * intros [] v E; cbn in E; try discriminate; injection E as <-; unfold vtk_cell; rewrite Ne; split; first [exact Et|exact Eq|reflexivity].
      * intros s [<-|[<-|[]]]; discriminate.
      * discriminate.
  - destruct (Nat.eqb_spec order 1) as [->|Ne].
    + eexists. split; [reflexivity|]. split; [|split].
      * intros [] v E; cbn in E; try discriminate; injection E as <-; unfold vtk_cell; repeat apply conj; first [exact S5|exact S3|reflexivity].
      * intros s [<-|[<-|[]]]; discriminate.
      * split; discriminate.
    + destruct (C59_tetrahedron order Ho) as (pt & Et & _), (C59_hexahedron order Ho) as (pq & Eq & _). rewrite Et, Eq. cbn [lagrange option_map all_some].
      eexists. split; [reflexivity|]. split; [|split].
      * apply Nat.eqb_neq in Ne.
        intros [] v E; cbn in E; try discriminate; injection E as <-; unfold vtk_cell; rewrite Ne; split; first [exact Et|exact Eq|reflexivity].
      * intros s [<-|[<-|[]]]; discriminate.
      * intros _ ->. congruence.
Qed.
Print Assumptions C60_mapping.

(** Prisms and pyramids have a cell only for order 1: any mesh with one of them is refused for a higher order. *)
Theorem C60_prisms_refuted : forall order elements e, 2 <= order -> In e elements ->
  geometryType e = TriangularPrism \/ geometryType e = Pyramid ->
  exists m, setupMapping 3 order = Some m /\ writeLocalFileHeader 3 m elements = None.
Proof.
  intros order elements e Ho He Hs. destruct (C60_mapping 3 order) as (m & Em & Hf & _); [lia|lia|].
  exists m. split; [exact Em|].
  assert (F : find (geometryType e) m = None).
  { destruct (find (geometryType e) m) as [v|] eqn:Ef; [|reflexivity]. exfalso. apply Hf in Ef.
    destruct Hs as [Hs|Hs]; rewrite Hs in Ef; cbn in Ef; lia. }
  unfold writeLocalFileHeader.
  assert (C : countPass m elements = None); [|rewrite C; reflexivity].
  unfold countPass. set (st := (0, 0)). clearbody st. revert st He.
  induction elements as [|e' elements IH]; intros st; [intros []|].
  intros [->|He]; cbn [foldM]; [rewrite F; reflexivity|].
  destruct (find (geometryType e') m); [apply IH, He|reflexivity].
Qed.
Print Assumptions C60_prisms_refuted.

(** The mesh.  Reading the arrays gives for every element of the mesh, in order, the type of its cell and the images of the
    points of the cell under the map of the element, with zeros for the missing coordinates. *)
Theorem C60_mesh : forall dim m elements, dim <= 3 ->
  (forall e, In e elements -> has_cell m e) ->
  (forall e p, In (e, p) (all_points m elements) -> List.length (referenceToPhysical e p) = dim) ->
  fits (3 * List.length (all_points m elements)) -> fits (List.length elements) ->
  exists a, writeLocalFileHeader dim m elements = Some a /\
    numberOfPoints a = List.length (all_points m elements) /\ numberOfCells a = List.length elements /\
    List.length (pointCoordinates a) = 3 * numberOfPoints a /\
    read_cells 0 (types a) (offsets a) (connectivity a) (pointCoordinates a) =
      map (fun e => (vtkId (cell_of m e), map (fun p => Some (padded (referenceToPhysical e p))) (getPoints (cell_of m e)))) elements.
Proof.
  intros dim m elements Hd HC HP HN HE. rewrite (mesh_pass dim m elements Hd HC HP HN HE).
  eexists. split; [reflexivity|]. cbn [numberOfPoints numberOfCells types offsets connectivity pointCoordinates].
  split; [reflexivity|]. split; [reflexivity|]. split.
  - unfold coords. apply flat_length. intros ep Hep. apply (phys_length dim m elements Hd HP ep Hep).
  - apply (read_back dim m elements Hd HP elements [] eq_refl).
Qed.
Print Assumptions C60_mesh.

(** The fields.  With different names for the arrays every array is in the local file; a scalar array has one value for each
    point, a vector array a tuple of three numbers for each point, and a tensor array nine numbers for each point. *)
Theorem C60_fields : forall (T : Type) dim m elements (extractor : element -> point -> T) (o : outputs T), dim <= 3 ->
  (forall e, In e elements -> has_cell m e) ->
  (forall e, In e (vectors o) -> forall x, List.length (snd e x) = dim) ->
  NoDup (map fst (scalars o) ++ map fst (vectors o) ++ map fst (tensors o)) ->
  fits (9 * List.length (all_points m elements)) ->
  exists s v t, writeMultiple dim m (List.length (all_points m elements)) elements extractor o = Some (s ++ v ++ t) /\
    map name s = map fst (scalars o) /\ map name v = map fst (vectors o) /\ map name t = map fst (tensors o) /\
    (forall i a f, nth_error s i = Some a -> nth_error (scalars o) i = Some f ->
      read_tuples (numberOfComponents a) (List.length (all_points m elements)) (values a) =
      Some (map (fun ep => [snd f (extractor (fst ep) (snd ep))]) (all_points m elements))) /\
    (forall i a f, nth_error v i = Some a -> nth_error (vectors o) i = Some f ->
      read_tuples (numberOfComponents a) (List.length (all_points m elements)) (values a) =
      Some (map (fun ep => padded (snd f (extractor (fst ep) (snd ep)))) (all_points m elements))) /\
    (forall i a f, nth_error t i = Some a -> nth_error (tensors o) i = Some f ->
      values a = flat_map (fun ep => padded_tensor dim (snd f (extractor (fst ep) (snd ep)))) (all_points m elements)).
Proof.
  intros T dim m elements extractor o Hd HC HV HNames HN.
  rewrite (fields_ok dim m elements extractor o Hd HC HV HNames HN).
  eexists _, _, _. split; [reflexivity|]. rewrite !map_map. cbn [name].
  split; [reflexivity|]. split; [reflexivity|]. split; [reflexivity|]. split; [|split].
  - intros i a f Ha Hf. rewrite nth_error_map, Hf in Ha. cbn [option_map] in Ha. injection Ha as <-. cbn [numberOfComponents values].
    unfold vals. rewrite map_map.
    rewrite <- (read_tuples_flat (fun ep : element * point => [snd f (extractor (fst ep) (snd ep))]) 1) by reflexivity.
    reflexivity.
  - intros i a f Ha Hf. rewrite nth_error_map, Hf in Ha. cbn [option_map] in Ha. injection Ha as <-. cbn [numberOfComponents values].
    unfold vals. rewrite flat_map_concat_map, map_map, <- flat_map_concat_map.
    apply read_tuples_flat. intros ep. apply (padded_length dim); [|exact Hd]. apply HV. apply (nth_error_In _ i), Hf.
  - intros i a f Ha Hf. rewrite nth_error_map, Hf in Ha. cbn [option_map] in Ha. injection Ha as <-. cbn [values].
    unfold vals. rewrite flat_map_concat_map, map_map, <- flat_map_concat_map. reflexivity.
Qed.
Print Assumptions C60_fields.

(** A tensor array is announced with three components, so that no reader can cut it into one tuple for each point. *)
Theorem C60_tensors_refuted : forall (T : Type) dim m elements (extractor : element -> point -> T) (o : outputs T), dim <= 3 ->
  (forall e, In e elements -> has_cell m e) ->
  (forall e, In e (vectors o) -> forall x, List.length (snd e x) = dim) ->
  NoDup (map fst (scalars o) ++ map fst (vectors o) ++ map fst (tensors o)) ->
  fits (9 * List.length (all_points m elements)) -> all_points m elements <> [] ->
  exists arrays, writeMultiple dim m (List.length (all_points m elements)) elements extractor o = Some arrays /\
    forall a, In a arrays -> In (name a) (map fst (tensors o)) ->
      read_tuples (numberOfComponents a) (List.length (all_points m elements)) (values a) = None.
Proof.
  intros T dim m elements extractor o Hd HC HV HNames HN NE.
  rewrite (fields_ok dim m elements extractor o Hd HC HV HNames HN).
  eexists. split; [reflexivity|]. intros a Ha Hn.
  destruct (names_split o HNames) as (_ & _ & _ & DS & DV & _).
  apply in_app_or in Ha. destruct Ha as [Ha|Ha].
  { apply in_map_iff in Ha. destruct Ha as (e & <- & He). exfalso. apply (DS (fst e)); [apply in_map, He|exact Hn]. }
  apply in_app_or in Ha. destruct Ha as [Ha|Ha]; apply in_map_iff in Ha; destruct Ha as (e & <- & He).
  { exfalso. apply (DV (fst e)); [apply in_map, He|exact Hn]. }
  cbn [numberOfComponents values]. match goal with |- ?x = None => destruct x as [t|] eqn:E; [exfalso|reflexivity] end.
  apply read_tuples_length in E. rewrite (flat_length _ 9) in E by reflexivity. unfold vals in E. rewrite map_length in E.
  destruct (all_points m elements); [apply NE; reflexivity|]. cbn [List.length] in E. lia.
Qed.
Print Assumptions C60_tensors_refuted.

(** The master file announces the arrays of the local file, in the same order and with the same numbers of components. *)
Theorem C60_master : forall (T : Type) dim m n elements (extractor : element -> point -> T) (o : outputs T) arrays,
  writeMultiple dim m n elements extractor o = Some arrays ->
  masterArrays o = map (fun a => (name a, numberOfComponents a)) arrays.
Proof.
  intros T dim m n elements extractor o arrays H. unfold writeMultiple in H.
  destruct (forPoints _ _ _ _ _) as [[d k]|]; [|discriminate]. injection H as <-.
  rewrite !map_app, !map_map. reflexivity.
Qed.
Print Assumptions C60_master.

(** The same name for a scalar and for a vector: the two share an array, and neither can be read. *)
Definition line_mesh : list element := [{| geometryType := Line; referenceToPhysical := fun p => p |}].
Definition line_map : list (shape * vtkElement) := [standard Line 3 vtkLine].
Definition shared : outputs R := {| scalars := [("u"%string, fun x => x)]; vectors := [("u"%string, fun x => [x])]; tensors := [] |}.
Theorem C60_names_refuted : exists s v, writeMultiple 1 line_map 2 line_mesh (fun _ p => nth 0 p 0%R) shared = Some [s; v] /\
  read_tuples (numberOfComponents s) 2 (values s) = None.
Proof.
  eexists _, _. split; [vm_compute; reflexivity|]. reflexivity.
Qed.
Print Assumptions C60_names_refuted.

(** Binary arrays.  Up to 2^32 - 1 bytes the text gives the bytes of the values back; the bytes are those of memory. *)
Theorem C60_binary : forall (V : Type) sizeof (encode : V -> list N) data,
  (forall x, List.length (encode x) = sizeof) -> (forall x, Forall is_byte (encode x)) ->
  fits (List.length data * sizeof) ->
  exists text, writeBinaryDataArrayData sizeof encode data = Some text /\ read_binary text = Some (flat_map encode data).
Proof.
  intros V sizeof encode data L B F. destruct (binary_ok sizeof encode data L B) as (text & E & H).
  exists text. split; [exact E|]. rewrite H, u32_fits by exact F. f_equal. apply firstn_all2.
  rewrite (flat_length encode sizeof) by (intros; apply L). lia.
Qed.
Print Assumptions C60_binary.

(** From 2^32 bytes on, bytes are missing. *)
Theorem C60_binary_refuted : forall (V : Type) sizeof (encode : V -> list N) data,
  (forall x, List.length (encode x) = sizeof) -> (forall x, Forall is_byte (encode x)) ->
  ~ fits (List.length data * sizeof) ->
  exists text bytes, writeBinaryDataArrayData sizeof encode data = Some text /\ read_binary text = Some bytes /\
    List.length bytes < List.length (flat_map encode data).
Proof.
  intros V sizeof encode data L B F. destruct (binary_ok sizeof encode data L B) as (text & E & H).
  exists text, (firstn (u32 (List.length data * sizeof)) (flat_map encode data)). split; [exact E|]. split; [exact H|].
  rewrite firstn_length. rewrite (flat_length encode sizeof) by (intros; apply L). unfold fits in F.
  pose proof (u32_lt (List.length data * sizeof)) as U. lia.
Qed.
Print Assumptions C60_binary_refuted.

(** The pieces: the master file names a file in its own directory, and that file is the one that the process writes. *)
Theorem C60_pieces : forall number base, exists dir rest, base = dir ++ rest /\ ~ In slash rest /\
  (dir = [] \/ exists d, dir = d ++ [slash]) /\
  forall i, localName number base i = dir ++ pieceName number base i /\
    pieceName number base i = rest ++ list_ascii_of_string "." ++ number i ++ list_ascii_of_string ".vtu".
Proof.
  intros number base. destruct (after_last_slash_ok base [] base) as (dir & H1 & H2 & H3).
  { left. reflexivity. } { exists []. split; [reflexivity|intros []]. }
  exists dir, (after_last_slash base base). cbn [app] in H3. split; [exact H3|]. split; [exact H2|]. split; [exact H1|].
  intros i. split; [|reflexivity]. unfold localName, pieceName. rewrite H3 at 1. rewrite <- app_assoc. reflexivity.
Qed.
Print Assumptions C60_pieces.

(** Examples: a mesh of a triangle and a square, a field on it, an array that is too long, and a name in a directory. *)
Definition flat_mesh : list element :=
  [{| geometryType := Triangle; referenceToPhysical := fun p => p |};
   {| geometryType := Square; referenceToPhysical := fun p => map (fun x => x + 2)%R p |}].
Definition flat_map_ : list (shape * vtkElement) := [standard Triangle 5 vtkTriangle; standard Square 9 vtkQuad].
Example C60_mesh_nonvacuous :
  setupMapping 2 1 = Some flat_map_ /\
  (forall e, In e flat_mesh -> has_cell flat_map_ e) /\
  (forall e p, In (e, p) (all_points flat_map_ flat_mesh) -> List.length (referenceToPhysical e p) = 2) /\
  List.length (all_points flat_map_ flat_mesh) = 7 /\
  fits (9 * List.length (all_points flat_map_ flat_mesh)) /\
  exists a, writeLocalFileHeader 2 flat_map_ flat_mesh = Some a /\
  offsets a = [3; 7] /\
  types a = [5; 9].
Proof.
  split; [reflexivity|]. split. { intros e [<-|[<-|[]]]; discriminate. }
  split. { intros e p H. cbn in H. repeat (destruct H as [H|H]; [injection H as <- <-; reflexivity|]). destruct H. }
  split; [reflexivity|]. split; [reflexivity|].
  destruct (C60_mesh 2 flat_map_ flat_mesh) as (a & E & _).
  - lia.
  - intros e [<-|[<-|[]]]; discriminate.
  - intros e p H. cbn in H. repeat (destruct H as [H|H]; [injection H as <- <-; reflexivity|]). destruct H.
  - reflexivity.
  - reflexivity.
  - exists a. split; [exact E|]. revert E. rewrite mesh_pass; try reflexivity.
    + intros E. injection E as <-. split; reflexivity.
    + lia.
    + intros e [<-|[<-|[]]]; discriminate.
    + intros e p H. cbn in H. repeat (destruct H as [H|H]; [injection H as <- <-; reflexivity|]). destruct H.
Qed.
Definition three_fields : outputs R := {| scalars := [("p"%string, fun x => x)]; vectors := [("u"%string, fun x => [x; x + 1]%R)];
  tensors := [("s"%string, fun x i j => (x * INR i + INR j)%R)] |}.
Example C60_fields_nonvacuous :
  (forall e, In e (vectors three_fields) -> forall x, List.length (snd e x) = 2) /\ NoDup (map fst (scalars three_fields) ++ map fst (vectors three_fields) ++ map fst (tensors three_fields)) /\ all_points flat_map_ flat_mesh <> [].
Proof.
  split; [intros e [<-|[]] x; reflexivity|]. split; [|discriminate].
  cbn. repeat constructor; cbn; intuition discriminate.
Qed.
Example C60_prisms_nonvacuous : exists elements e, In e elements /\ geometryType e = Pyramid.
Proof. exists [{| geometryType := Pyramid; referenceToPhysical := fun p => p |}]. eexists. split; [left; reflexivity|reflexivity]. Qed.
Example C60_binary_nonvacuous :
  (exists data : list N, fits (List.length data * 1) /\ data <> []) /\ (exists data : list (list N), ~ fits (List.length data * 8)).
Proof.
  split; [exists [1%N; 2%N]; split; [reflexivity|discriminate]|].
  exists (repeat [] (N.to_nat 536870912)). unfold fits. rewrite repeat_length. 
  replace (N.of_nat (N.to_nat 536870912 * 8)) with 4294967296%N; [lia|]. rewrite Nat2N.inj_mul, N2Nat.id. reflexivity.
Qed.
Example C60_pieces_nonvacuous : exists number, 
  pieceName number (list_ascii_of_string "out/run/a") 3 = list_ascii_of_string "a.3.vtu" /\
  localName number (list_ascii_of_string "out/run/a") 3 = list_ascii_of_string "out/run/a.3.vtu".
Proof. exists (fun _ => list_ascii_of_string "3"). split; reflexivity. Qed.
