(** The whole file. *)
From Coq Require Import String Ascii List Arith Bool ZArith Lia.
From Verif Require Import Loop_model Loop_proofs StdMap_model StdMap_proofs Reorder_model Gmsh_model Gmsh_spec CommandLine_spec Gmsh_proofs GmshSections_proofs.
Import ListNotations.

Section File.
  Context {D : Type}.
  Variable convert : text -> option D.
  Variable exceeds : D -> bool.
  Variable isVersion : D -> bool.
  Variable rounded : D -> Z.
  Variable zero : D.
  Notation reader := (@reader D).
  Notation description := (@description D).
  Notation add := (add rounded).
  Notation rel := (rel exceeds).
  Notation sensible := (sensible rounded).

  Lemma app_end : forall (body b name e' r : text), body ++ b ++ (chars "$End" ++ name) ++ e' ++ r = (body ++ (b ++ (chars "$End" ++ name) ++ e' ++ r)).
  Proof. reflexivity. Qed.
  Lemma section_end : forall name b e' r, new_line b -> one_line name -> ending e' r ->
    readSectionEnd (enough (Stream (b ++ (chars "$End" ++ name) ++ e' ++ r) false)) name (Stream (b ++ (chars "$End" ++ name) ++ e' ++ r) false) = Some (Stream r false).
  Proof.
    intros name b e' r B N E. apply readSectionEnd_ok; [now right|exact N|exact E|]. unfold enough. cbn [rest]. rewrite app_length. lia.
  Qed.
  Ltac concrete := split; cbv; intuition discriminate.

  Lemma add_names : forall d pre a, add d (Names (pre ++ [a])) = add (add d (Names pre)) (Names [a]).
  Proof. intros. cbn. now rewrite app_assoc. Qed.
  Lemma add_nodes : forall d pre a, add d (Nodes (pre ++ [a])) = add (add d (Nodes pre)) (Nodes [a]).
  Proof. intros. cbn. now rewrite app_assoc. Qed.
  Lemma add_elements : forall (d : description) pre a, add d (Elements (pre ++ [a])) = add (add d (Elements pre)) (Elements [a]).
  Proof. intros. cbn. now rewrite app_assoc. Qed.
  Lemma add_data : forall d pre a, add d (Data (pre ++ [a])) = add (add d (Data pre)) (Data [a]).
  Proof.
    intros. cbn [Gmsh_spec.add d_names d_nodes d_elements d_periodic]. f_equal. rewrite map_map. apply map_ext. intros e.
    unfold retag. now rewrite fold_left_app.
  Qed.
  Lemma add_none : forall d : description, add d (Names []) = d /\ add d (Nodes []) = d /\ add d (Elements []) = d /\ add d (Data []) = d.
  Proof.
    intros [a b c p]. cbn. rewrite !app_nil_r. repeat split. f_equal. unfold retag. cbn [fold_left]. apply map_id.
  Qed.
  Lemma forall_split : forall {A} (P : A -> Prop) l, Forall P l -> forall l1 a l2, l = l1 ++ a :: l2 -> P a.
  Proof. intros A P l H l1 a l2 ->. rewrite Forall_forall in H. apply H, in_elt. Qed.

  Definition reads (f : reader * stream -> option (reader * stream)) (c : content) (name : text) : Prop :=
    forall d st ws body b e' r, rel d st -> sensible d c -> titled convert c name ws -> laid ws body -> new_line b -> ending e' r ->
    exists st', f (st, Stream (body ++ b ++ (chars "$End" ++ name) ++ e' ++ r) false) = Some (st', Stream r false) /\ rel (add d c) st'.

  Lemma readPhysicalNames_ok : forall l, reads readPhysicalNames (Names l) (chars "PhysicalNames").
  Proof.
    intros l d st ws body b e' r R G T L B E. inversion T; subst.
    match goal with H : listed _ _ _ |- _ => destruct (laid_listed _ _ _ _ (b ++ (chars "$End" ++ chars "PhysicalNames") ++ e' ++ r) H L (new_line_more _ _ B)) as (ws' & t' & W & F & S) end.
    unfold readPhysicalNames. cbn [fst snd]. rewrite S. cbn [bind fst snd]. rewrite Nat2Z.id.
    destruct (times_words name_words (fun pre st => rel (add d (Names pre)) st) (fun _ p => fst (fst p) <= 3 /\ snd (fst p) <> (- 2 ^ 31)%Z) readName) with (l := l) (st := st) (ws := ws') (t := t') (r := b ++ (chars "$End" ++ chars "PhysicalNames") ++ e' ++ r)
      as (st' & E1 & R1); try assumption.
    - intros. rewrite add_names. eapply readName_ok; eassumption.
    - apply (forall_split _ _ G).
    - rewrite (proj1 (add_none d)). exact R.
    - now apply new_line_more.
    - rewrite E1. cbn [bind fst snd]. rewrite section_end by (try assumption; concrete). exists st'. now split.
  Qed.
  Lemma readNodes_ok : forall l, reads (readNodes convert exceeds) (Nodes l) (chars "Nodes").
  Proof.
    intros l d st ws body b e' r R G T L B E. inversion T; subst.
    match goal with H : listed _ _ _ |- _ => destruct (laid_listed _ _ _ _ (b ++ (chars "$End" ++ chars "Nodes") ++ e' ++ r) H L (new_line_more _ _ B)) as (ws' & t' & W & F & S) end.
    unfold readNodes. cbn [fst snd]. rewrite S. cbn [bind fst snd]. rewrite Nat2Z.id.
    destruct (times_words (node_words convert) (fun pre st => rel (add d (Nodes pre)) st) (fun _ p => (1 <= fst p)%Z) (readNode convert exceeds)) with (l := l) (st := st) (ws := ws') (t := t') (r := b ++ (chars "$End" ++ chars "Nodes") ++ e' ++ r)
      as (st' & E1 & R1); try assumption.
    - intros. rewrite add_nodes. eapply readNode_ok; eassumption.
    - apply (forall_split _ _ G).
    - rewrite (proj1 (proj2 (add_none d))). exact R.
    - now apply new_line_more.
    - rewrite E1. cbn [bind fst snd]. rewrite section_end by (try assumption; concrete). exists st'. now split.
  Qed.
  Lemma readElements_ok : forall l, reads readElements (Elements l) (chars "Elements").
  Proof.
    intros l d st ws body b e' r R (G1 & G2) T L B E. inversion T; subst.
    match goal with H : listed _ _ _ |- _ => destruct (laid_listed _ _ _ _ (b ++ (chars "$End" ++ chars "Elements") ++ e' ++ r) H L (new_line_more _ _ B)) as (ws' & t' & W & F & S) end.
    unfold readElements. rewrite registered_ok. cbn [bind fst snd]. rewrite S. cbn [bind fst snd]. rewrite Nat2Z.id.
    destruct (times_words element_words (fun pre st => rel (add d (Elements pre)) st)
        (fun pre e => g_number e = Z.of_nat (length (d_elements d) + length pre + 1) /\
          ((exists dim order, shape (g_type e) = Some (dim, order) /\ length (g_nodes e) = length order) /\
           Forall (fun n => (1 <= n)%Z) (g_nodes e) /\ (0 <= g_tag e < 2 ^ 64 - 1)%Z))
        (readElement registered)) with (l := l) (st := st) (ws := ws') (t := t') (r := b ++ (chars "$End" ++ chars "Elements") ++ e' ++ r)
      as (st' & E1 & R1); try assumption.
    - intros pre a st0 ws0 t0 r0 (A1 & A2 & A3 & A4) R0 W0 F0 M0. rewrite add_elements. eapply readElement_ok; try eassumption.
      rewrite A1. cbn [Gmsh_spec.add d_elements]. now rewrite app_length.
    - intros l1 a l2 El. split; [|exact (forall_split _ _ G2 l1 a l2 El)]. apply G1. rewrite El, nth_error_app2, Nat.sub_diag by lia. reflexivity.
    - rewrite (proj1 (proj2 (proj2 (add_none d)))). exact R.
    - now apply new_line_more.
    - rewrite E1. cbn [bind fst snd]. rewrite section_end by (try assumption; concrete). exists st'. now split.
  Qed.

  Lemma readMerge_ok : forall n pre (a : Z * Z * Z * list (Z * Z)) ms ws t r, length pre < n -> length ms = n ->
    Forall (fun q => (1 <= fst q)%Z /\ (1 <= snd q)%Z) (snd a) -> nth_error ms (length pre) = Some [] ->
    periodic_words a ws -> follows ws t -> more r ->
    exists m ms', readMerge (@length (Z * Z * Z * list (Z * Z)) pre) (ms, Stream (t ++ r) false) = Some (ms', Stream r false) /\ merge_rel (snd a) m /\
      length ms' = n /\ forall j, nth_error ms' j = if j =? length pre then Some m else nth_error ms j.
  Proof.
    intros n pre a ms ws t r P L G E W F M. destruct W as [x y z l wx wy wz ws Hx Hy Hz Hl]. cbn [snd] in *. do 3 next.
    match goal with F : follows ws ?u |- _ => rename F into F1; rename u into t1 end.
    destruct (follows_listed _ _ _ _ r Hl F1 M) as (ws' & t' & W' & F' & S').
    assert (M1 : more (t1 ++ r)) by (eapply follows_more; eassumption).
    unfold readMerge. cbn [times fst snd]. unfold skipSize. rewrite <- !app_assoc. size. size. size. rewrite S'. cbn [bind fst snd]. rewrite E. cbn [bind].
    rewrite Nat2Z.id. destruct (readPairs_ok l ws' t' r G W' F' M) as (m & E2 & R2). rewrite E2. cbn [bind fst snd].
    destruct (write_ok ms (length pre) m) as (ms' & W1 & W2 & W3); [lia|]. rewrite W1. cbn [bind]. exists m, ms'.
    split; [reflexivity|]. split; [exact R2|]. split; [congruence|exact W3].
  Qed.
  Lemma forall2_nth : forall {A B} (P : A -> B -> Prop) l l', length l = length l' ->
    (forall i a b, nth_error l i = Some a -> nth_error l' i = Some b -> P a b) -> Forall2 P l l'.
  Proof.
    induction l as [|a l IH]; intros [|b l'] L H; try discriminate; constructor; [now apply (H 0)|]. apply IH; [now injection L|].
    intros i. apply (H (S i)).
  Qed.
  Lemma readPBCs_ok : forall l, reads readPBCs (Periodic l) (chars "Periodic").
  Proof.
    intros l d st ws body b e' r R (G1 & G2) T L B E. inversion T; subst.
    match goal with H : listed _ _ _ |- _ => destruct (laid_listed _ _ _ _ (b ++ (chars "$End" ++ chars "Periodic") ++ e' ++ r) H L (new_line_more _ _ B)) as (ws' & t' & W & F & S) end.
    unfold readPBCs. cbn [fst snd]. rewrite S. cbn [bind fst snd]. rewrite Nat2Z.id. destruct R as [R1 R2 R3 R4 R5 R6 R7].
    rewrite G1 in R5. assert (Em : merges st = []) by now inversion R5. rewrite Em.
    set (n := length l). unfold for_loop.
    destruct (for_words periodic_words
       (fun pre ms => length ms = n /\ (forall i p m, nth_error pre i = Some p -> nth_error ms i = Some m -> merge_rel (snd p) m) /\
                      (forall i, length pre <= i < n -> nth_error ms i = Some []))
       (fun pre p => length pre < n /\ Forall (fun q => (1 <= fst q)%Z /\ (1 <= snd q)%Z) (snd p)) readMerge)
      with (l := l) (pre := @nil (Z * Z * Z * list (Z * Z))) (st := vresize (@nil (list (Z * Z))) n []) (ws := ws') (t := t') (r := b ++ (chars "$End" ++ chars "Periodic") ++ e' ++ r)
      as (ms & E1 & (I1 & I2 & I3)); try assumption.
    - intros pre p ms ws0 t0 r0 (P1 & P2) (J1 & J2 & J3) W0 F0 M0.
      destruct (readMerge_ok n pre p ms ws0 t0 r0 P1 J1 P2 (J3 (length pre) (conj (le_n _) P1)) W0 F0 M0) as (m & ms' & K1 & K2 & K3 & K4).
      exists ms'. split; [exact K1|]. split; [exact K3|]. split.
      + intros i q m' Hq Hm. rewrite K4 in Hm. destruct (Nat.eqb_spec i (length pre)) as [->|N].
        * injection Hm as <-. rewrite nth_error_app2, Nat.sub_diag in Hq by lia. injection Hq as <-. exact K2.
        * assert (Hi : i < length (pre ++ [p])) by (apply nth_error_Some; congruence). rewrite app_length in Hi. cbn [length] in Hi.
          rewrite nth_error_app1 in Hq by lia. now apply (J2 i).
      + intros i Hi. rewrite app_length in Hi. cbn in Hi. rewrite K4. destruct (Nat.eqb_spec i (length pre)); [lia|]. apply J3. lia.
    - intros l1 p l2 El. cbn [app]. split; [unfold n; rewrite El, app_length; cbn; lia|exact (forall_split _ _ G2 l1 p l2 El)].
    - split; [apply vresize_length|]. split; [intros [|i]; discriminate|]. intros i Hi. rewrite vresize_nth by (cbn [length] in Hi; lia). destruct (Nat.ltb_spec i (length (@nil (list (Z * Z))))); [cbn in *; lia|reflexivity].
    - now apply new_line_more.
    - cbn [length] in E1. fold n in E1. rewrite E1. cbn [bind fst snd]. rewrite section_end by (try assumption; concrete). eexists. split; [reflexivity|].
      constructor; cbn [dimension physicalNames rawElements nodes merges]; try assumption.
      cbn [Gmsh_spec.add d_periodic]. apply forall2_nth; [now rewrite map_length|]. intros i a m Ha Hm. rewrite nth_error_map in Ha.
      destruct (nth_error l i) as [p|] eqn:Ep; [|discriminate]. injection Ha as <-. now apply (I2 i p m).
  Qed.

  Lemma readElementData_ok : forall l, reads (readElementData convert rounded) (Data l) (chars "ElementData").
  Proof.
    intros l d st ws body b e' r R (G1 & G2) T L B E. inversion T; subst.
    set (r0 := b ++ (chars "$End" ++ chars "ElementData") ++ e' ++ r). assert (M : more r0) by now apply new_line_more.
    unfold readElementData. cbn [fst snd]. rewrite (proj1 (rel_names _ _ _ R) G1).
    match goal with H : data_words _ _ _ |- _ => destruct H as [strings reals others step ws1 ws2 wk wstep w1 wn ws3 ws' H1 H2 Hk Hstep H1' Hn H3 H4] end.
    inversion H1 as [w0 ws1' N0 A0]; subst. destruct L as (w & ws4 & sep & t' & EL & SL & FL & ->). injection EL as <- <-.
    destruct (follows_split _ _ _ FL) as (u1 & v1 & F1 & FL1 & ->). destruct (follows_split _ _ _ FL1) as (u2 & v2 & F2 & FL2 & ->).
    do 4 match goal with F : follows (_ :: _) _ |- _ => inversion F; subst; clear F end.
    match goal with F : follows (ws3 ++ ws') _ |- _ => destruct (follows_split _ _ _ F) as (u3 & v3 & F3 & F4 & ->); clear F end.
    clear FL FL1. rewrite <- !app_assoc. fold r0.
    assert (M4 : more (v3 ++ r0)) by (eapply follows_more; eassumption).
    assert (M3 : more (u3 ++ v3 ++ r0)) by (eapply follows_more; eassumption).
    match goal with |- context [u2 ++ ?x] => assert (M2 : more x) by (apply more_space; assumption); assert (M1 : more (u2 ++ x)) by (eapply follows_more; eassumption) end.
    match goal with |- context [u1 ++ ?x] => assert (M0 : more (u1 ++ x)) by (eapply follows_more; eassumption) end.
    size. rewrite Nat2Z.id.
    rewrite (times_skip (one (fun s w => s = w /\ plain w)) skipWord) with (ws := ws1'); try assumption.
    2:{ intros a ws5 t5 r5 (w5 & -> & _ & P5) F5 M5. inversion F5 as [|? ? ? ? ? ? F6]; subst. inversion F6; subst.
        unfold skipWord. rewrite app_nil_r, <- !app_assoc. rewrite extract_word by assumption. reflexivity. }
    cbn [bind]. destruct (follows_listed _ _ _ _ _ H2 F2 M2) as (ws2' & t2' & A2 & FF2 & S2). rewrite S2. cbn [bind fst snd]. rewrite Nat2Z.id.
    rewrite (times_skip (one (real convert)) (skipReal convert)) with (ws := ws2'); try assumption.
    2:{ intros a ws5 t5 r5 (w5 & -> & P5) F5 M5. inversion F5 as [|? ? ? ? ? ? F6]; subst. inversion F6; subst.
        unfold skipReal. rewrite app_nil_r, <- !app_assoc. erewrite readReal_word by eassumption. reflexivity. }
    cbn [bind]. size. destruct (Z.ltb_spec 2 (3 + Z.of_nat (length others))); [|lia]. cbn [must bind]. size. size. size.
    cbn [Z.eqb Pos.eqb must bind]. replace (Z.to_nat (3 + Z.of_nat (length others) - 3)) with (length others) by lia.
    rewrite (skip_size others ws3 u3 (v3 ++ r0)) by assumption. cbn [bind]. rewrite Nat2Z.id.
    destruct (times_words (datum_words convert) (fun pre st => rel (add d (Data pre)) st)
       (fun pre p => (1 <= fst p <= Z.of_nat (length (d_elements d)))%Z /\ (0 <= rounded (snd p) < 2 ^ 64 - 1)%Z) (readDatum convert rounded)) with (l := l) (st := st) (ws := ws') (t := v3) (r := r0)
      as (st' & E1 & R1); try assumption.
    - intros pre a st0 ws0 t0 r1 (P1 & P2) R0 W0 F0 M5. rewrite add_data. eapply readDatum_ok; try eassumption.
      cbn [Gmsh_spec.add d_elements]. now rewrite map_length.
    - apply (forall_split _ _ G2).
    - rewrite (proj2 (proj2 (proj2 (add_none d)))). exact R.
    - rewrite E1. cbn [bind fst snd]. unfold r0. rewrite section_end by (try assumption; concrete). exists st'. now split.
  Qed.

  (** * The loop over the sections *)
  Notation sections := (readSections convert exceeds isVersion rounded).
  Lemma written_empty : forall cs, written convert cs [] -> forall d : description, fold_left add cs d = d.
  Proof.
    intros cs H. remember [] as t eqn:Et. induction H; intros d.
    - reflexivity.
    - exfalso. destruct H0 as (e & body & b & e' & _ & _ & _ & _ & ->). discriminate Et.
    - discriminate Et.
    - cbn [fold_left Gmsh_spec.add]. apply app_eq_nil in Et. destruct Et as (_ & Et). apply app_eq_nil in Et. destruct Et as (_ & Et). now apply IHwritten.
  Qed.
  Lemma title_line : forall name e r, one_line name -> ending e r ->
    safeGetline (Stream ((chars "$" ++ name) ++ e ++ r) false) = (DOLLAR :: name, Stream r false).
  Proof.
    intros name e r (A & B) E. apply (safeGetline_line (DOLLAR :: name)); [|exact E|left; discriminate].
    split; intros [H|H]; try contradiction; discriminate.
  Qed.
  Lemma titled_line : forall c name ws, titled convert c name ws -> one_line name.
  Proof. intros c name ws H. destruct H; concrete. Qed.
  Lemma ending_app : forall e a b, ending e a -> a <> [] -> ending e (a ++ b).
  Proof.
    intros e a b [->|[->|[(-> & H)|(-> & ->)]]] N; [now left|right; now left| |congruence]. right. right. left. split; [reflexivity|]. now destruct a.
  Qed.
  Lemma titled_step : forall c name ws d st fuel body b e' r, titled convert c name ws -> rel d st -> sensible d c -> laid ws body -> new_line b -> ending e' r ->
    forall e, ending e (body ++ b) -> exists st',
    sections (S fuel) true (st, Stream ((chars "$" ++ name) ++ e ++ body ++ b ++ (chars "$End" ++ name) ++ e' ++ r) false) =
      sections fuel true (st', Stream r false) /\ rel (add d c) st'.
  Proof.
    intros c name ws d st fuel body b e' r T R G L B E e Ee. cbn [readSections eof snd].
    rewrite (title_line name e); [|now apply (titled_line c name ws)|].
    2:{ rewrite app_assoc. apply ending_app; [exact Ee|]. destruct B as (_ & b' & [->| ->]); destruct body; destruct b'; discriminate. }
    cbn [fst snd]. change (Ascii.eqb DOLLAR DOLLAR) with true. cbn [negb].
    destruct T.
    - destruct (readPhysicalNames_ok l d st ws body b e' r R G (titled_names _ l ws H) L B E) as (st' & X & Y).
      exists st'. split; [|exact Y]. change (same (chars "PhysicalNames") (chars "MeshFormat")) with false. change (same (chars "PhysicalNames") (chars "PhysicalNames")) with true. cbv iota. cbn [must bind]. rewrite X. reflexivity.
    - destruct (readNodes_ok l d st ws body b e' r R G (titled_nodes _ l ws H) L B E) as (st' & X & Y).
      exists st'. split; [|exact Y]. change (same (chars "Nodes") (chars "MeshFormat")) with false. change (same (chars "Nodes") (chars "PhysicalNames")) with false. change (same (chars "Nodes") (chars "Nodes")) with true. cbv iota. cbn [must bind]. rewrite X. reflexivity.
    - destruct (readElements_ok l d st ws body b e' r R G (titled_elements _ l ws H) L B E) as (st' & X & Y).
      exists st'. split; [|exact Y]. change (same (chars "Elements") (chars "MeshFormat")) with false. change (same (chars "Elements") (chars "PhysicalNames")) with false. change (same (chars "Elements") (chars "Nodes")) with false. change (same (chars "Elements") (chars "Elements")) with true. cbv iota. cbn [must bind]. rewrite X. reflexivity.
    - destruct (readPBCs_ok l d st ws body b e' r R G (titled_periodic _ l ws H) L B E) as (st' & X & Y).
      exists st'. split; [|exact Y]. change (same (chars "Periodic") (chars "MeshFormat")) with false. change (same (chars "Periodic") (chars "PhysicalNames")) with false. change (same (chars "Periodic") (chars "Nodes")) with false. change (same (chars "Periodic") (chars "Elements")) with false. change (same (chars "Periodic") (chars "Periodic")) with true. cbv iota. rewrite X. reflexivity.
    - destruct (readElementData_ok l d st ws body b e' r R G (titled_data _ l ws H) L B E) as (st' & X & Y).
      exists st'. split; [|exact Y]. change (same (chars "ElementData") (chars "MeshFormat")) with false. change (same (chars "ElementData") (chars "PhysicalNames")) with false. change (same (chars "ElementData") (chars "Nodes")) with false. change (same (chars "ElementData") (chars "Elements")) with false. change (same (chars "ElementData") (chars "Periodic")) with false. change (same (chars "ElementData") (chars "ElementData")) with true. cbv iota. rewrite X. reflexivity.
  Qed.
  Lemma not_same : forall a b, a <> b -> same a b = false.
  Proof. intros a b H. destruct (same a b) eqn:E; [apply same_iff in E; contradiction|reflexivity]. Qed.
  Lemma other_step : forall name ls d st fuel e t e' r, rel d st -> sensible d (Other name ls) ->
    ending e (t ++ (chars "$End" ++ name) ++ e' ++ r) -> lines_text ls t ((chars "$End" ++ name) ++ e' ++ r) -> ending e' r ->
    sections (S fuel) true (st, Stream ((chars "$" ++ name) ++ e ++ t ++ (chars "$End" ++ name) ++ e' ++ r) false) =
      sections fuel true (st, Stream r false).
  Proof.
    intros name ls d st fuel e t e' r R (G1 & G2 & G3) Ee L E. cbn [readSections eof snd]. rewrite (title_line name e _ G2 Ee).
    cbn [fst snd]. change (Ascii.eqb DOLLAR DOLLAR) with true. cbn [negb].
    assert (X : skipSection (enough (Stream (t ++ (chars "$End" ++ name) ++ e' ++ r) false)) name (Stream (t ++ (chars "$End" ++ name) ++ e' ++ r) false) = Some (Stream r false)).
    { apply (skipSection_ok ls); [assumption..|]. unfold enough. cbn [rest]. rewrite app_length. lia. }
    destruct G1 as [G1|(-> & G1)].
    - cbn [map In] in G1. do 6 (rewrite not_same by (intros ->; apply G1; tauto)). rewrite X. reflexivity.
    - change (same (chars "ElementData") (chars "MeshFormat")) with false. change (same (chars "ElementData") (chars "PhysicalNames")) with false. change (same (chars "ElementData") (chars "Nodes")) with false. change (same (chars "ElementData") (chars "Elements")) with false. change (same (chars "ElementData") (chars "Periodic")) with false. change (same (chars "ElementData") (chars "ElementData")) with true. cbv iota.
      unfold readElementData. cbn [fst snd]. destruct (physicalNames st) as [|m l] eqn:Ep.
      + exfalso. destruct (d_names d) as [|p ns] eqn:En; [congruence|]. destruct (rel_names _ _ _ R) as (_ & Q & _). rewrite En, Ep in Q. specialize (Q p (or_introl eq_refl)). cbn in Q. lia.
      + rewrite X. reflexivity.
  Qed.
  Lemma line_step : forall l st fuel e r, one_line l -> hd_error l <> Some "$"%char -> ending e r -> l <> [] \/ e <> [] ->
    sections (S fuel) true (st, Stream (l ++ e ++ r) false) = sections fuel true (st, Stream r false).
  Proof.
    intros l st fuel e r L H E N. cbn [readSections eof snd]. rewrite (safeGetline_line l e r L E N). cbn [fst snd].
    destruct l as [|c l]; [reflexivity|]. destruct (Ascii.eqb_spec c DOLLAR) as [->|_]; [exfalso; now apply H|reflexivity].
  Qed.
  Lemma empty_step : forall found st fuel, sections (S (S fuel)) found (st, Stream [] false) = Some st.
  Proof. reflexivity. Qed.
  Lemma sections_ok : forall cs t, written convert cs t -> forall d st fuel, rel d st -> all_sensible rounded d cs -> length t + 2 <= fuel ->
    exists st', sections fuel true (st, Stream t false) = Some st' /\ rel (fold_left add cs d) st'.
  Proof.
    intros cs t H. induction H as [|c name ws cs t r T S H IH|name ls cs e t e' r E L E' H IH|l cs e r E H IH]; intros d st fuel R G F.
    - destruct fuel as [|[|fuel]]; [cbn in F; lia..|]. exists st. split; [apply empty_step|exact R].
    - inversion G as [|? ? ? Ga Gb]; subst. destruct S as (e & body & b & e' & S1 & S2 & S3 & S4 & ->).
      destruct fuel as [|fuel]; [lia|].
      destruct (titled_step c name ws d st fuel body b e' r T R Ga S2 S3 S4 e S1) as (st1 & X & R1).
      replace (((chars "$" ++ name) ++ e ++ body ++ b ++ (chars "$End" ++ name) ++ e') ++ r)
        with ((chars "$" ++ name) ++ e ++ body ++ b ++ (chars "$End" ++ name) ++ e' ++ r) by now rewrite <- !app_assoc.
      rewrite X. apply (IH (add d c)); [assumption..|]. rewrite !app_length in F. cbn in F. lia.
    - inversion G as [|? ? ? Ga Gb]; subst. destruct fuel as [|fuel]; [lia|]. rewrite (other_step name ls d st fuel e t e' r R Ga E L E').
      apply (IH d); [assumption..|]. rewrite !app_length in F. cbn in F. lia.
    - inversion G as [|? ? ? Ga Gb]; subst. destruct Ga as (G1 & G2). destruct l as [|c l]; [destruct e as [|c e]|].
      + destruct E as [X|[X|[(X & _)|(_ & ->)]]]; try discriminate. destruct fuel as [|[|fuel]]; [cbn in F; lia..|].
        exists st. split; [apply empty_step|]. cbn [fold_left Gmsh_spec.add]. now rewrite (written_empty cs H).
      + destruct fuel as [|fuel]; [lia|]. rewrite (line_step [] st fuel (c :: e) r G1 G2 E) by (right; discriminate).
        apply (IH d); [assumption..|]. cbn in F. rewrite app_length in F. lia.
      + destruct fuel as [|fuel]; [lia|]. rewrite (line_step (c :: l) st fuel e r G1 G2 E) by (left; discriminate).
        apply (IH d); [assumption..|]. cbn in F. rewrite !app_length in F. lia.
  Qed.
  Lemma header_ok : forall v wv w0 wd size body b e' r, real convert v wv -> isVersion v = true -> integer 0 w0 -> integer size wd ->
    laid [wv; w0; wd] body -> new_line b -> ending e' r ->
    readHeader convert isVersion (Stream (body ++ b ++ (chars "$End" ++ chars "MeshFormat") ++ e' ++ r) false) = Some (Stream r false).
  Proof.
    intros v wv w0 wd size body b e' r V1 V2 I0 I1 (w & ws & sep & t' & E & S & F & ->) B En. injection E as <- <-.
    pose proof (new_line_more b ((chars "$End" ++ chars "MeshFormat") ++ e' ++ r) B) as M. do 2 next. last.
    unfold readHeader. rewrite app_nil_r, <- !app_assoc. rewrite <- !app_assoc in M. rea. int. int. rewrite V2. cbn [must bind Z.eqb].
    change ((chars "$End" ++ chars "MeshFormat" ++ e' ++ r)) with ((chars "$End" ++ chars "MeshFormat") ++ e' ++ r).
    apply section_end; [exact B|concrete|exact En].
  Qed.

  (** * The mesh *)
  Lemma zone_ok : forall d st e, rel d st -> known e -> d_names d = [] \/ In (dimension_of exceeds d) (map (fun p => fst (fst p)) (d_names d)) ->
    zoneOf st (toRaw e) = Some (zone exceeds d (g_tag e)).
  Proof.
    intros d st e R (K1 & K2) C. unfold zoneOf, NO_TAG, sizeBound. cbn [toRaw physicalNameTag].
    destruct (Z.eqb_spec (g_tag e) (2 ^ 64 - 1)); [lia|]. destruct (rel_names _ _ _ R) as (N1 & N2 & N3). unfold zone.
    destruct (d_names d) as [|p ns] eqn:En.
    - now rewrite (N1 eq_refl).
    - destruct C as [C|C]; [discriminate|]. apply in_map_iff in C. destruct C as (q & Q1 & Q2). pose proof (N2 q Q2) as N.
      rewrite (rel_dimension _ _ _ R). rewrite Q1 in N. destruct (physicalNames st) as [|m0 l0] eqn:Ep; [cbn in N; lia|].
      destruct (nth_error (m0 :: l0) (dimension_of exceeds d)) as [m|] eqn:Em; [|apply nth_error_None in Em; lia]. cbn [bind].
      rewrite (N3 _ _ Em). unfold of_group. destruct (find _ (rev (p :: ns))) as [[? ?]|]; reflexivity.
  Qed.
  Definition top (d : description) : list gelement := filter (fun e => dim_of e =? dimension_of exceeds d) (d_elements d).
  Lemma convert_ok : forall d st, rel d st -> d_names d = [] \/ In (dimension_of exceeds d) (map (fun p => fst (fst p)) (d_names d)) ->
    forall l index, Forall known l -> exists els, convertRawElements st index (map toRaw l) = Some els /\
      let tl := filter (fun e => dim_of e =? dimension_of exceeds d) l in
      length els = length tl /\ forall i e, nth_error tl i = Some e ->
        nth_error els i = Some (Element (index + i) (map (fun j => (nth j (g_nodes e) 0 - 1)%Z) (order_of e)) (zone exceeds d (g_tag e)) (dimension_of exceeds d)).
  Proof.
    intros d st R C. induction l as [|e l IH]; intros index K.
    - exists []. split; [reflexivity|]. split; [reflexivity|]. intros [|i]; discriminate.
    - inversion K as [|? ? K1 K2]; subst. cbn [map convertRawElements toRaw r_dimension filter]. rewrite (rel_dimension _ _ _ R).
      destruct (Nat.eqb_spec (dim_of e) (dimension_of exceeds d)) as [E|N].
      + fold (toRaw e). rewrite (zone_ok d st e R K1 C). cbn [bind]. destruct (IH (S index) K2) as (els & X & Y & Z). rewrite X. cbn [bind].
        eexists. split; [reflexivity|]. split; [cbn; now rewrite Y|]. intros [|i] e' H.
        * injection H as <-. cbn [nth_error]. rewrite Nat.add_0_r. now rewrite <- E.
        * cbn [nth_error] in H |- *. rewrite (Z i e' H). f_equal. f_equal. lia.
      + exact (IH index K2).
  Qed.
  Lemma rel_start : rel (Describe [] [] [] []) (Reader 0 [] [] [] []).
  Proof.
    constructor; try reflexivity; [|constructor|intros [|i]; discriminate|constructor].
    split; [reflexivity|]. split; [intros p []|]. intros [|k]; discriminate.
  Qed.
  Lemma dimension_bound : forall cs d, dimension_of exceeds d <= 3 -> all_sensible rounded d cs -> dimension_of exceeds (fold_left add cs d) <= 3.
  Proof.
    induction cs as [|c cs IH]; intros d B G; [exact B|]. inversion G as [|? ? ? G1 G2]; subst. cbn [fold_left]. apply IH; [|exact G2]. clear IH G G2.
    unfold dimension_of in *. rewrite list_max_le in *. rewrite Forall_app in *. destruct B as (B1 & B2).
    destruct c; cbn [Gmsh_spec.add d_names d_nodes]; try (now split).
    - split; [|exact B2]. rewrite map_app, Forall_app. split; [exact B1|]. apply Forall_map. eapply Forall_impl; [|exact G1]. intros p (P & _). exact P.
    - split; [exact B1|]. rewrite map_app, Forall_app. split; [exact B2|]. apply Forall_map. apply Forall_forall. intros (n & ((x, y), z)) _. cbn [snd needed].
      destruct (exceeds z), (exceeds y), (exceeds x); lia.
  Qed.
  Lemma prune_ok : forall dim p, dim <= 3 -> prune zero dim (toNode p) = ((fst p - 1)%Z, position dim (snd p)).
  Proof.
    intros dim (n & ((x, y), z)) H. unfold prune. cbn [toNode fst snd position].
    destruct dim as [|[|[|[|dim]]]]; try reflexivity. lia.
  Qed.
  Lemma known_add : forall d c, Forall known (d_elements d) -> sensible d c -> Forall known (d_elements (add d c)).
  Proof.
    intros d c K G. destruct c; cbn [Gmsh_spec.add d_elements]; try exact K.
    - apply Forall_app. split; [exact K|]. destruct G as (_ & G). eapply Forall_impl; [|exact G]. intros e ((dim & order & E & _) & _ & T). split; [congruence|exact T].
    - apply Forall_map. destruct G as (_ & G). eapply Forall_impl; [|exact K]. intros e Ke. clear K. revert e Ke. unfold retag.
      induction l as [|p l IH]; intros e Ke; [exact Ke|]. inversion G as [|? ? (G1 & G2) G3]; subst. cbn [fold_left]. apply IH; [exact G3|].
      destruct (fst p =? g_number e)%Z; [|exact Ke]. destruct Ke as (A & _). split; [exact A|exact G2].
  Qed.
  Lemma known_all : forall cs d, Forall known (d_elements d) -> all_sensible rounded d cs -> Forall known (d_elements (fold_left add cs d)).
  Proof.
    induction cs as [|c cs IH]; intros d K G; [exact K|]. inversion G; subst. cbn [fold_left]. apply IH; [|assumption]. now apply known_add.
  Qed.
  Lemma known_described : forall cs, all_sensible rounded (Describe [] [] [] []) cs -> Forall known (d_elements (described rounded cs)).
  Proof. intros cs G. apply known_all; [constructor|exact G]. Qed.
  Lemma file_ok : forall cs t, file convert isVersion cs t -> all_sensible rounded (Describe [] [] [] []) cs ->
    let d := described rounded cs in
    d_names d = [] \/ In (dimension_of exceeds d) (map (fun p => fst (fst p)) (d_names d)) ->
    exists m, readGmsh convert exceeds isVersion rounded zero t = Some m /\
      m_dimension m = dimension_of exceeds d /\
      m_nodes m = map (fun p => ((fst p - 1)%Z, position (dimension_of exceeds d) (snd p))) (d_nodes d) /\
      Forall2 merge_rel (d_periodic d) (m_merges m) /\
      length (m_elements m) = length (top d) /\
      forall i e, nth_error (top d) i = Some e -> nth_error (m_elements m) i =
        Some (Element i (map (fun j => (nth j (g_nodes e) 0 - 1)%Z) (order_of e)) (zone exceeds d (g_tag e)) (dimension_of exceeds d)).
  Proof.
    intros cs t (v & wv & w0 & wd & size & h & r & V1 & V2 & I0 & I1 & (e & body & b & e' & S1 & S2 & S3 & S4 & ->) & W & ->) G d C.
    unfold readGmsh. rewrite <- !app_assoc. set (s := Stream _ false).
    assert (Q : length r + 3 <= enough s).
    { unfold enough, s. cbn [rest]. rewrite !app_length. change (length (chars "$")) with 1. lia. }
    destruct (enough s) as [|fuel]; [lia|]. assert (F : length r + 2 <= fuel) by lia. unfold s. cbn [readSections eof snd].
    change (chars "$" ++ chars "MeshFormat" ++ e ++ body ++ b ++ chars "$End" ++ chars "MeshFormat" ++ e' ++ r)
      with ((chars "$" ++ chars "MeshFormat") ++ e ++ body ++ b ++ (chars "$End" ++ chars "MeshFormat") ++ e' ++ r).
    rewrite (title_line (chars "MeshFormat") e); [|concrete|].
    2:{ rewrite app_assoc. apply ending_app; [exact S1|]. destruct S3 as (_ & b' & [->| ->]); destruct body; destruct b'; discriminate. }
    cbn [fst snd]. change (Ascii.eqb DOLLAR DOLLAR) with true. cbn [negb must bind]. change (same (chars "MeshFormat") (chars "MeshFormat")) with true. cbv iota.
    rewrite (header_ok v wv w0 wd size) by assumption. cbn [bind].
    destruct (sections_ok cs r W _ _ fuel rel_start G F) as (st & Es & R). rewrite Es. cbn [bind]. fold (described rounded cs) in R. fold d in R.
    rewrite (rel_raw _ _ _ R). destruct (convert_ok d st R C (d_elements d) 0 (rel_known _ _ _ R)) as (els & E1 & E2 & E3). rewrite E1. cbn [bind].
    eexists. split; [reflexivity|]. cbn [m_dimension m_nodes m_merges m_elements]. split; [apply (rel_dimension _ _ _ R)|]. split.
    { rewrite (rel_nodes _ _ _ R), (rel_dimension _ _ _ R), map_map. apply map_ext. intros p. apply prune_ok. apply dimension_bound; [cbn; lia|exact G]. }
    split; [apply (rel_merges _ _ _ R)|]. split; [exact E2|exact E3].
  Qed.
End File.
