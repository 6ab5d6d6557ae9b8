(** The sections of a Gmsh file: after each of them the reader holds what has been described so far. *)
From Coq Require Import String Ascii List Arith Bool ZArith Lia.
From Verif Require Import Loop_model Loop_proofs StdMap_model StdMap_proofs Reorder_model Gmsh_model Gmsh_spec CommandLine_spec Gmsh_proofs.
Import ListNotations.

(** * Loops over lists of words *)
Lemma for_words : forall {A St} (words : A -> list text -> Prop) (R : list A -> St -> Prop) (good : list A -> A -> Prop)
    (body : nat -> St * stream -> option (St * stream)),
  (forall pre a st ws t r, good pre a -> R pre st -> words a ws -> follows ws t -> more r ->
     exists st', body (length pre) (st, Stream (t ++ r) false) = Some (st', Stream r false) /\ R (pre ++ [a]) st') ->
  forall l pre st ws t r, (forall l1 a l2, l = l1 ++ a :: l2 -> good (pre ++ l1) a) -> R pre st ->
  all words l ws -> follows ws t -> more r ->
  exists st', for_from (length pre) (length l) body (st, Stream (t ++ r) false) = Some (st', Stream r false) /\ R (pre ++ l) st'.
Proof.
  intros A St words R good body B. induction l as [|a l IH]; intros pre st ws t r G I W F M; inversion W as [|? ? ws1 ws2 W1 W2]; subst.
  - inversion F; subst. exists st. split; [reflexivity|now rewrite app_nil_r].
  - destruct (follows_split _ _ _ F) as (t1 & t2 & F1 & F2 & ->). cbn [length for_from]. rewrite <- app_assoc.
    pose proof (G [] a l eq_refl) as Ga. rewrite app_nil_r in Ga.
    destruct (B pre a st ws1 t1 (t2 ++ r) Ga I W1 F1 (follows_more _ _ _ F2 M)) as (st1 & E1 & I1). rewrite E1.
    destruct (IH (pre ++ [a]) st1 ws2 t2 r) as (st' & E & I'); [|assumption..|].
    { intros l1 b l2 E. rewrite <- app_assoc. apply (G (a :: l1) b l2). now rewrite E. }
    exists st'. rewrite app_length in E. cbn in E. rewrite Nat.add_1_r in E. split; [exact E|]. now rewrite <- app_assoc in I'.
Qed.
Lemma times_for : forall {St} n (body : St -> option St) k s, times n body s = for_from k n (fun _ => body) s.
Proof.
  induction n as [|n IH]; intros body k s; [reflexivity|]. cbn [times for_from]. destruct (body s); [apply IH|reflexivity].
Qed.
Lemma times_words : forall {A St} (words : A -> list text -> Prop) (R : list A -> St -> Prop) (good : list A -> A -> Prop)
    (body : St * stream -> option (St * stream)),
  (forall pre a st ws t r, good pre a -> R pre st -> words a ws -> follows ws t -> more r ->
     exists st', body (st, Stream (t ++ r) false) = Some (st', Stream r false) /\ R (pre ++ [a]) st') ->
  forall l st ws t r, (forall l1 a l2, l = l1 ++ a :: l2 -> good l1 a) -> R [] st ->
  all words l ws -> follows ws t -> more r ->
  exists st', times (length l) body (st, Stream (t ++ r) false) = Some (st', Stream r false) /\ R l st'.
Proof.
  intros A St words R good body B l st ws t r G I W F M. rewrite (times_for _ body (length (@nil A))).
  exact (for_words words R good (fun _ => body) B l [] st ws t r G I W F M).
Qed.
(** the number of items comes first *)
Lemma laid_listed : forall {A} (words : A -> list text -> Prop) l ws t r, listed words l ws -> laid ws t -> more r ->
  exists ws' t', all words l ws' /\ follows ws' t' /\
    readSize (Stream (t ++ r) false) = Some (Z.of_nat (length l), Stream (t' ++ r) false).
Proof.
  intros A words l ws t r L (w & ws' & sep & t' & -> & S & F & ->) M. inversion L; subst. exists ws', t'.
  split; [assumption|]. split; [exact F|]. rewrite <- !app_assoc. apply readSize_word; [exact S|assumption|now apply (follows_more ws')].
Qed.
Lemma follows_laid : forall w ws t, follows (w :: ws) t -> laid (w :: ws) t.
Proof. intros w ws t H. inversion H; subst. now exists w, ws, sep, t0. Qed.
Lemma follows_listed : forall {A} (words : A -> list text -> Prop) l ws t r, listed words l ws -> follows ws t -> more r ->
  exists ws' t', all words l ws' /\ follows ws' t' /\
    readSize (Stream (t ++ r) false) = Some (Z.of_nat (length l), Stream (t' ++ r) false).
Proof. intros A words l ws t r L F M. apply (laid_listed words l ws t r L); [|exact M]. inversion L; subst. now apply follows_laid. Qed.
Lemma new_line_more : forall b r, new_line b -> more (b ++ r).
Proof. intros b r (H & b' & E). apply more_space; [|exact H]. destruct E as [->| ->]; now destruct b'. Qed.

Ltac next := match goal with F : follows (_ :: _) _ |- _ => inversion F; subst; clear F end.
Ltac last := match goal with F : follows [] _ |- _ => inversion F; subst; clear F end.
Ltac more_tac := solve [assumption | apply more_space; assumption | eapply follows_more; eassumption].
Ltac size := erewrite readSize_word; [|eassumption|eassumption|more_tac]; cbn [bind fst snd].
Ltac int := erewrite readInt_word; [|eassumption|eassumption|more_tac]; cbn [bind fst snd].
Ltac rea := erewrite readReal_word; [|eassumption|eassumption|more_tac]; cbn [bind fst snd].

Section Sections.
  Context {D : Type}.
  Variable convert : text -> option D.
  Variable exceeds : D -> bool.
  Variable isVersion : D -> bool.
  Variable rounded : D -> Z.
  Variable zero : D.
  Notation reader := (@reader D).
  Notation description := (@description D).
  Notation add := (add rounded).

  (** * The state of the reader *)
  Definition of_group (k : nat) (tag : Z) (p : nat * Z * text) : bool := ((fst (fst p) =? k) && (Z.abs (snd (fst p)) =? tag)%Z)%bool.
  Definition names_rel (ns : list (nat * Z * text)) (l : list (list (Z * text))) : Prop :=
    (ns = [] -> l = []) /\ (forall p, In p ns -> fst (fst p) < length l) /\
    forall k m, nth_error l k = Some m -> forall tag, mfind Z.ltb tag m = option_map snd (find (of_group k tag) (rev ns)).
  Definition order_of (e : gelement) : list nat := match shape (g_type e) with Some (_, o) => o | None => [] end.
  Definition dim_of (e : gelement) : nat := match shape (g_type e) with Some (k, _) => k | None => 0 end.
  Definition toRaw (e : gelement) : raw :=
    Raw (g_number e) (dim_of e) (g_tag e) (map (fun i => (nth i (g_nodes e) 0 - 1)%Z) (order_of e)).
  Definition toNode (p : Z * (D * D * D)) : Z * list D := let '(n, (x, y, z)) := p in ((n - 1)%Z, [x; y; z]).
  Definition merge_rel (l m : list (Z * Z)) : Prop :=
    forall k, mfind Z.ltb k m = option_map (fun v => (v - 1)%Z) (assigned l (k + 1)).
  Definition known (e : gelement) : Prop := shape (g_type e) <> None /\ (0 <= g_tag e < 2 ^ 64 - 1)%Z.
  Record rel (d : description) (st : reader) : Prop := {
    rel_dimension : dimension st = dimension_of exceeds d;
    rel_names : names_rel (d_names d) (physicalNames st);
    rel_raw : rawElements st = map toRaw (d_elements d);
    rel_nodes : nodes st = map toNode (d_nodes d);
    rel_merges : Forall2 merge_rel (d_periodic d) (merges st);
    rel_numbers : forall i e, nth_error (d_elements d) i = Some e -> g_number e = Z.of_nat (i + 1);
    rel_known : Forall known (d_elements d) }.

  Lemma Z_strict_total : strict_total Z.ltb.
  Proof.
    constructor.
    - intros x. apply Z.ltb_irrefl.
    - intros x y z H1 H2. rewrite Z.ltb_lt in *. lia.
    - intros x y H1 H2. rewrite Z.ltb_ge in *. lia.
  Qed.
  Lemma predecessor_ok : forall n w, natural n w -> (1 <= n)%Z -> predecessor n = (n - 1)%Z.
  Proof. intros n w H N. apply natural_range in H. unfold predecessor, sizeBound. apply Z.mod_small. lia. Qed.

  (** * Names *)
  Lemma dimension_names : forall d a, dimension_of exceeds (add d (Names [a])) = Nat.max (dimension_of exceeds d) (fst (fst a)).
  Proof. intros d a. unfold dimension_of. cbn [add Gmsh_spec.add d_names d_nodes]. rewrite map_app, !list_max_app. cbn. lia. Qed.
  Lemma names_add : forall ns l dim tag s, names_rel ns l -> exists m l',
    nth_error (if length l <? dim + 1 then vresize l (dim + 1) [] else l) dim = Some m /\
    write (if length l <? dim + 1 then vresize l (dim + 1) [] else l) dim (mput Z.ltb (Z.abs tag) s m) = Some l' /\
    names_rel (ns ++ [(dim, tag, s)]) l'.
  Proof.
    intros ns l dim tag s (E & B & H).
    set (l1 := if length l <? dim + 1 then vresize l (dim + 1) [] else l).
    assert (L : length l <= length l1 /\ dim < length l1 /\
                forall k m, nth_error l1 k = Some m -> forall tag, mfind Z.ltb tag m = option_map snd (find (of_group k tag) (rev ns))).
    { unfold l1. destruct (Nat.ltb_spec (length l) (dim + 1)) as [L|L]; [|split; [lia|split; [lia|exact H]]].
      rewrite vresize_length. split; [lia|]. split; [lia|]. intros k m K.
      assert (K' : k < dim + 1) by (rewrite <- (vresize_length l (dim + 1) []); apply nth_error_Some; congruence).
      rewrite vresize_nth in K by exact K'. destruct (Nat.ltb_spec k (length l)) as [K2|K2]; [now apply H|]. injection K as <-.
      intros g. cbn [mfind]. destruct (find (of_group k g) (rev ns)) as [p|] eqn:F; [|reflexivity].
      apply find_some in F. destruct F as (F1 & F2). apply in_rev, B in F1. unfold of_group in F2.
      apply andb_true_iff in F2. destruct F2 as (F2 & _). apply Nat.eqb_eq in F2. lia. }
    destruct L as (L1 & L2 & L3). destruct (nth_error l1 dim) as [m|] eqn:Em; [|apply nth_error_None in Em; lia].
    destruct (write_ok l1 dim (mput Z.ltb (Z.abs tag) s m) L2) as (l' & W1 & W2 & W3). exists m, l'. split; [reflexivity|]. split; [exact W1|].
    split; [intros C; destruct ns; discriminate|]. split.
    { intros p Hp. apply in_app_iff in Hp. rewrite W2. destruct Hp as [Hp|[<-|[]]]; [apply B in Hp; lia|cbn; lia]. }
    intros k m' K g. rewrite W3 in K. rewrite rev_app_distr. cbn [rev app find]. unfold of_group at 1. cbn [fst snd].
    destruct (Nat.eqb_spec k dim) as [->|N].
    - injection K as <-. rewrite Nat.eqb_refl. cbn [andb]. destruct (Z.eqb_spec (Z.abs tag) g) as [<-|N].
      + now rewrite (mfind_put_same _ Z_strict_total).
      + rewrite (mfind_put_other _ Z_strict_total) by exact N. now apply L3.
    - destruct (Nat.eqb_spec dim k); [congruence|]. cbn [andb]. now apply L3.
  Qed.
  Lemma readName_ok : forall d a st ws t r, rel d st -> (fst (fst a) <= 3 /\ snd (fst a) <> (- 2 ^ 31)%Z) -> name_words a ws -> follows ws t -> more r ->
    exists st', readName (st, Stream (t ++ r) false) = Some (st', Stream r false) /\ rel (add d (Names [a])) st'.
  Proof.
    intros d a st ws t r R (_ & N) W F M. destruct W as [k g s wk wg ws Hk Hg Hs]. cbn [fst snd] in N. do 3 next. last.
    unfold readName. cbn [fst snd]. rewrite app_nil_r, <- !app_assoc. size. int.
    destruct (Z.eqb_spec g (- 2 ^ 31)); [contradiction|]. cbn [negb must bind].
    erewrite readQuoted_word; [|eassumption|eassumption]. cbn [bind fst snd]. rewrite Nat2Z.id.
    replace (if (g <? 0)%Z then (- g)%Z else g) with (Z.abs g) by (destruct (Z.ltb_spec g 0); lia).
    destruct (names_add _ _ k g s (rel_names _ _ R)) as (m & l' & E1 & E2 & E3). rewrite E1. cbn [bind]. rewrite E2. cbn [bind].
    eexists. split; [reflexivity|]. destruct R as [R1 R2 R3 R4 R5 R6 R7].
    constructor; cbn [dimension physicalNames rawElements nodes merges]; try assumption.
    rewrite dimension_names, R1. cbn [fst]. destruct (Nat.ltb_spec (dimension_of exceeds d) k); lia.
  Qed.

  (** * Nodes *)
  Lemma dimension_nodes : forall d a, dimension_of exceeds (add d (Nodes [a])) = Nat.max (dimension_of exceeds d) (needed exceeds (snd a)).
  Proof. intros d a. unfold dimension_of. cbn [add Gmsh_spec.add d_names d_nodes]. rewrite map_app, !list_max_app. cbn. lia. Qed.
  Lemma readNode_ok : forall d a st ws t r, rel d st -> (1 <= fst a)%Z -> node_words convert a ws -> follows ws t -> more r ->
    exists st', readNode convert exceeds (st, Stream (t ++ r) false) = Some (st', Stream r false) /\ rel (add d (Nodes [a])) st'.
  Proof.
    intros d a st ws t r R N W F M. destruct W as [n x y z wn wx wy wz Hn Hx Hy Hz]. cbn [fst snd] in N. do 4 next. last.
    unfold readNode. cbn [fst snd]. rewrite app_nil_r, <- !app_assoc. size. rea. rea. rea.
    eexists. split; [reflexivity|]. destruct R as [R1 R2 R3 R4 R5 R6 R7].
    constructor; cbn [dimension physicalNames rawElements nodes merges]; try assumption.
    - rewrite dimension_nodes, R1. cbn [snd needed]. set (k := dimension_of exceeds d).
      destruct (exceeds z), (exceeds y), (exceeds x); destruct (Nat.ltb_spec k 3), (Nat.ltb_spec k 2), (Nat.ltb_spec k 1); cbn [andb]; lia.
    - cbn [add Gmsh_spec.add d_nodes]. rewrite map_app, R4. cbn [map toNode]. now rewrite (predecessor_ok n wn Hn N).
  Qed.

  (** * Elements *)
  Lemma skipInts : forall l ws t r, all (one integer) l ws -> follows ws t -> more r ->
    times (length l) skipInt (Stream (t ++ r) false) = Some (Stream r false).
  Proof.
    apply times_skip. intros z ws t r (w & -> & W) F M. next. last. unfold skipInt. rewrite app_nil_r, <- !app_assoc. int. reflexivity.
  Qed.
  Lemma readCoordinates : forall l ws t r, Forall (fun n => (1 <= n)%Z) l -> all (one natural) l ws -> follows ws t -> more r ->
    times (length l) readCoordinate ([], Stream (t ++ r) false) = Some (map (fun n => (n - 1)%Z) l, Stream r false).
  Proof.
    intros l ws t r G W F M.
    destruct (times_words (one natural) (fun pre st => st = map (fun n => (n - 1)%Z) pre) (fun _ n => (1 <= n)%Z) readCoordinate) with (l := l) (st := @nil Z) (ws := ws) (t := t) (r := r)
      as (st' & E & ->); try assumption; try reflexivity.
    - intros pre n st ws' t' r' N -> (w & -> & Hw) F' M'. next. last. unfold readCoordinate. cbn [fst snd].
      rewrite app_nil_r, <- !app_assoc. size. rewrite (predecessor_ok n w Hw N). eexists. split; [reflexivity|]. now rewrite map_app.
    - intros l1 a l2 E. rewrite Forall_forall in G. apply G. rewrite E. apply in_elt.
  Qed.
  Definition registered : registry := map (fun p => {| e_dim := fst p; e_order := snd p |}) gmsh_orders.
  Lemma registered_ok : register_all [] gmsh_orders = Some registered.
  Proof. reflexivity. Qed.
  (** every type: its numbers of nodes, and the registered order *)
  Lemma shape_ok : forall t dim order, shape t = Some (dim, order) ->
    elementType t = Some (dim, length order) /\
    forall l : list Z, length l = length order -> reorderToHpGem registered dim (map (fun n => (n - 1)%Z) l) = Some (map (fun i => (nth i l 0 - 1)%Z) order).
  Proof.
    intros t dim order H.
    assert (T : In t [15; 1; 8; 2; 9; 3; 7; 5; 6; 11]%Z).
    { unfold shape in H. destruct t as [|p|p]; try discriminate.
      do 5 (destruct p as [p|p|]; try discriminate; try (cbn; tauto)). }
    cbn in T. repeat (destruct T as [<-|T]; [injection H as <- <-; split; [reflexivity|]; intros l L;
      repeat (destruct l as [|? l]; [discriminate L|]); destruct l; [reflexivity|discriminate L]|]). contradiction.
  Qed.
  Lemma readElement_ok : forall d e st ws t r, rel d st -> g_number e = Z.of_nat (length (d_elements d) + 1) ->
    (exists dim order, shape (g_type e) = Some (dim, order) /\ length (g_nodes e) = length order) ->
    Forall (fun n => (1 <= n)%Z) (g_nodes e) -> (0 <= g_tag e < 2 ^ 64 - 1)%Z ->
    element_words e ws -> follows ws t -> more r ->
    exists st', readElement registered (st, Stream (t ++ r) false) = Some (st', Stream r false) /\ rel (add d (Elements [e])) st'.
  Proof.
    intros d e st ws t r R N (dim & order & HS & HL) G T W F M.
    destruct W as [e wn wt wk wg ws vs Hn Ht Hk Hg Hm Hv]. do 4 next.
    match goal with F : follows (ws ++ vs) ?u |- _ => destruct (follows_split _ _ _ F) as (t1 & t2 & F1 & F2 & ->); clear F end.
    assert (M2 : more (t2 ++ r)) by (eapply follows_more; eassumption).
    assert (M1 : more (t1 ++ t2 ++ r)) by (eapply follows_more; eassumption).
    unfold readElement. cbn [fst snd]. rewrite <- !app_assoc.
    size. size. size. destruct (shape_ok _ _ _ HS) as (ET & RO). rewrite ET. cbn [bind].
    rewrite (predecessor_ok _ _ Hn) by lia. rewrite (rel_raw _ _ R), map_length.
    destruct (Z.eqb_spec (g_number e - 1) (Z.of_nat (length (d_elements d)))); [|lia]. cbn [must bind].
    destruct (Z.ltb_spec 0 (1 + Z.of_nat (length (g_more e)))); [|lia].
    size. rewrite (predecessor_ok _ _ Hk) by lia.
    replace (Z.to_nat (1 + Z.of_nat (length (g_more e)) - 1)) with (length (g_more e)) by lia.
    rewrite (skipInts (g_more e) ws t1 (t2 ++ r) Hm F1 (follows_more _ _ _ F2 M)). cbn [bind fst snd].
    rewrite <- HL, (readCoordinates (g_nodes e) vs t2 r G Hv F2 M). cbn [bind fst snd].
    rewrite (RO (g_nodes e) HL). cbn [bind].
    eexists. split; [reflexivity|]. destruct R as [R1 R2 R3 R4 R5 R6 R7].
    constructor; cbn [dimension physicalNames rawElements nodes merges]; cbn [add Gmsh_spec.add d_names d_nodes d_elements d_periodic]; try assumption.
    - rewrite map_app. cbn [map]. f_equal. unfold toRaw, dim_of, order_of. now rewrite HS.
    - intros i e' E. destruct (Nat.lt_ge_cases i (length (d_elements d))) as [L|L].
      + rewrite nth_error_app1 in E by exact L. now apply R6.
      + rewrite nth_error_app2 in E by exact L. destruct (i - length (d_elements d)) as [|k] eqn:Ek; [|now destruct k].
        injection E as <-. rewrite N. f_equal. lia.
    - apply Forall_app. split; [exact R7|]. constructor; [|constructor]. split; [congruence|exact T].
  Qed.

  (** * Values of elements *)
  Definition retag1 (p : Z * D) (e : gelement) : gelement :=
    if (fst p =? g_number e)%Z then GElement (g_number e) (g_type e) (rounded (snd p)) (g_more e) (g_nodes e) else e.
  Lemma readDatum_ok : forall d a st ws t r, rel d st -> (1 <= fst a <= Z.of_nat (length (d_elements d)))%Z ->
    (0 <= rounded (snd a) < 2 ^ 64 - 1)%Z -> datum_words convert a ws -> follows ws t -> more r ->
    exists st', readDatum convert rounded (st, Stream (t ++ r) false) = Some (st', Stream r false) /\ rel (add d (Data [a])) st'.
  Proof.
    intros d a st ws t r R N T W F M. destruct W as [n x wn wx Hn Hx]. cbn [fst snd] in N, T. do 2 next. last.
    unfold readDatum. cbn [fst snd]. rewrite app_nil_r, <- !app_assoc. size. rea.
    rewrite (predecessor_ok _ _ Hn) by lia. destruct R as [R1 R2 R3 R4 R5 R6 R7]. rewrite R3.
    set (k := Z.to_nat (n - 1)). assert (K : k < length (d_elements d)) by lia.
    destruct (nth_error (d_elements d) k) as [e|] eqn:Ek; [|apply nth_error_None in Ek; lia].
    pose proof (R6 _ _ Ek) as Nk. rewrite nth_error_map, Ek. cbn [option_map bind]. cbn [toRaw gmshTag].
    destruct (Z.eqb_spec (g_number e) n); [|lia]. cbn [must bind].
    destruct (write_ok (map toRaw (d_elements d)) k (Raw (g_number e) (dim_of e) (rounded x) (map (fun i => (nth i (g_nodes e) 0 - 1)%Z) (order_of e)))) as (l' & W1 & W2 & W3);
      [now rewrite map_length|].
    match goal with |- context [write ?l ?i ?x] => replace (write l i x) with (Some l') by (symmetry; exact W1) end. cbn [bind]. eexists. split; [reflexivity|].
    assert (El : d_elements (add d (Data [(n, x)])) = map (retag1 (n, x)) (d_elements d)) by reflexivity.
    constructor; cbn [dimension physicalNames rawElements nodes merges]; try assumption; rewrite ?El.
    - apply nth_error_ext_le; [now rewrite W2, !map_length|]. intros i Hi. rewrite W3, !nth_error_map.
      rewrite W2, map_length in Hi. destruct (nth_error (d_elements d) i) as [e'|] eqn:Ei; [|apply nth_error_None in Ei; lia]. cbn [option_map].
      unfold retag1. cbn [fst snd]. rewrite (R6 _ _ Ei). destruct (Nat.eqb_spec i k) as [->|Nik].
      + destruct (Z.eqb_spec n (Z.of_nat (k + 1))); [|lia]. rewrite Ek in Ei. injection Ei as <-. rewrite <- Nk. reflexivity.
      + destruct (Z.eqb_spec n (Z.of_nat (i + 1))); [lia|reflexivity].
    - intros i e' E. rewrite nth_error_map in E. destruct (nth_error (d_elements d) i) as [e9|] eqn:Ei; [|discriminate]. injection E as <-.
      rewrite <- (R6 _ _ Ei). unfold retag1. now destruct (Z.eqb _ _).
    - apply Forall_map. eapply Forall_impl; [|exact R7]. intros e9 (A & B). unfold retag1. destruct (Z.eqb _ _); [|split; assumption].
      split; [exact A|exact T].
  Qed.

  (** * Periodic nodes *)
  Lemma assigned_snoc : forall l a b k, assigned (l ++ [(a, b)]) k = if (a =? k)%Z then Some b else assigned l k.
  Proof. intros l a b k. unfold assigned. rewrite rev_app_distr. cbn [rev app find fst]. now destruct (a =? k)%Z. Qed.
  Lemma readPairs_ok : forall l ws t r, Forall (fun q => (1 <= fst q)%Z /\ (1 <= snd q)%Z) l -> all pair_words l ws -> follows ws t -> more r ->
    exists m, times (length l) readPair ([], Stream (t ++ r) false) = Some (m, Stream r false) /\ merge_rel l m.
  Proof.
    intros l ws t r G W F M.
    apply (times_words pair_words merge_rel (fun _ q => (1 <= fst q)%Z /\ (1 <= snd q)%Z) readPair) with (ws := ws); try assumption.
    - intros pre q m ws' t' r' (N1 & N2) R W' F' M'. destruct W' as [a b wa wb Ha Hb]. cbn [fst snd] in N1, N2. do 2 next. last.
      unfold readPair. cbn [fst snd]. rewrite app_nil_r, <- !app_assoc. size. size.
      rewrite (predecessor_ok _ _ Ha N1), (predecessor_ok _ _ Hb N2). eexists. split; [reflexivity|].
      intros k. rewrite assigned_snoc. destruct (Z.eqb_spec a (k + 1)) as [->|N].
      + replace (k + 1 - 1)%Z with k by lia. now rewrite (mfind_put_same _ Z_strict_total).
      + rewrite (mfind_put_other _ Z_strict_total) by lia. apply R.
    - intros l1 a l2 E. rewrite Forall_forall in G. apply G. rewrite E. apply in_elt.
    - intros k. reflexivity.
  Qed.
  Lemma skip_size : forall l ws t r, all (one natural) l ws -> follows ws t -> more r ->
    times (length l) skipSize (Stream (t ++ r) false) = Some (Stream r false).
  Proof.
    apply times_skip. intros z ws t r (w & -> & W) F M. next. last. unfold skipSize. rewrite app_nil_r, <- !app_assoc. size. reflexivity.
  Qed.
End Sections.
