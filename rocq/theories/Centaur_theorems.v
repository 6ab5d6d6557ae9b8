(** C69: a file of Centaur gives the mesh it describes. *)
From Coq Require Import List ZArith Bool Lia.
From Verif Require Import Centaur_model Centaur_spec Centaur_proofs CentaurZones_proofs.
Import ListNotations.
Open Scope Z_scope.

(** In a program with assertions every record is read, skipped and measured as it was written, whatever follows it, and
    the end of the file is seen only where it is. *)
Theorem C69_records : forall c r rest, asserts c = true -> fits_record r ->
  readRawRecord c (Z.of_nat (length r)) (record r ++ rest) = Some (r, rest) /\
  skipRecord c (Z.of_nat (length r)) (record r ++ rest) = Some rest /\
  peekRecordSize c (record r ++ rest) = Some (Z.of_nat (length r)) /\
  forall s, eof s = true <-> s = [].
Proof.
  intros c r rest C F. split; [now apply read_record|]. split; [now apply skip_record|]. split; [now apply peek_record|].
  intros [|x s]; cbn; split; congruence.
Qed.
Print Assumptions C69_records.
Definition checked := Build true [1; 2; 3; 4] [5; 6; 7; 8].
Example C69_records_nonvacuous : asserts checked = true /\ fits_record [10; 20; 30] /\
  readRawRecord checked 3 [3; 0; 0; 0; 10; 20; 30; 3; 0; 0; 0; 99] = Some ([10; 20; 30], [99]).
Proof. repeat split; cbn; lia. Qed.

(** Nothing but a record of the expected length is read or skipped; but for a record whose last marker is cut off by the
    end of the file. *)
Theorem C69_refuses : forall c n s, asserts c = true -> Forall (fun b => 0 <= b < 256) s ->
  (forall r rest, readRawRecord c n s = Some (r, rest) -> (4 <= length rest)%nat -> n = Z.of_nat (length r) /\ fits n /\ s = record r ++ rest) /\
  (forall r rest, readRawRecord c n s = Some (r, rest) ->
     n = Z.of_nat (length r) /\ fits n /\ (s = record r ++ rest \/ ((length rest < 4)%nat /\ s = number n ++ r ++ rest))) /\
  (forall rest, skipRecord c n s = Some rest -> exists r, n = Z.of_nat (length r) /\ fits n /\ s = record r ++ rest).
Proof.
  intros c n s C B. split; [|split].
  - intros r rest H L. destruct (read_inv c C n s r rest B H) as [H1 [H2 [H3|[H3 _]]]]; [auto|lia].
  - intros r rest H. exact (read_inv c C n s r rest B H).
  - intros rest H. exact (skip_inv c C n s rest B H).
Qed.
Print Assumptions C69_refuses.
Example C69_refuses_nonvacuous :
  readRawRecord checked 3 [4; 0; 0; 0; 10; 20; 30; 3; 0; 0; 0] = None /\
  readRawRecord checked 3 [3; 0; 0; 0; 10; 20; 30; 4; 0; 0; 0] = None /\
  readRawRecord checked 3 [3; 0; 0; 0; 10; 20] = None /\
  skipRecord checked 3 [3; 0; 0; 0; 10; 20; 30; 3; 0; 0] = None /\
  skipRecord checked 3 [3; 0; 0; 0; 10; 20; 30; 3; 0; 0; 0; 1] = Some [1].
Proof. repeat split. Qed.

(** Refuted: a file that ends before the last marker of a record is always refused.  The result of reading that marker is
    not looked at, and the variable can hold the right length by accident. *)
Theorem C69_cut_refuted : forall r, fits_record r ->
  exists c, asserts c = true /\ readRawRecord c (Z.of_nat (length r)) (number (Z.of_nat (length r)) ++ r) = Some (r, []).
Proof.
  intros r F. exists (Build true [] (number (Z.of_nat (length r)))). split; [reflexivity|].
  unfold readRawRecord, assert_debug. cbn [asserts atStart atEnd]. rewrite read_marker by exact F. rewrite Z.eqb_refl. cbn [andb]. unfold sgetn.
  rewrite Nat2Z.id, firstn_all, skipn_all. unfold size. rewrite Z.ltb_irrefl, Z.eqb_refl.
  unfold readRecordSize, sgetn. rewrite firstn_nil, skipn_nil. cbn [app skipn length size Z.of_nat Z.eqb].
  rewrite (firstn_all2 (number _)) by (cbn; lia). rewrite value_number by exact F. now rewrite Z.eqb_refl.
Qed.
Print Assumptions C69_cut_refuted.
Example C69_cut_refuted_nonvacuous : fits_record [10; 20; 30]. Proof. unfold fits_record, fits. cbn. lia. Qed.

(** Refuted: a program without assertions reads the record.  The marker before the record is read in the argument of an
    assertion, so that it is not read at all: whatever the uninitialised length is, what is put in the buffer is not the
    record (but for records that start like their own length). *)
Theorem C69_release_refuted : forall c x r rest, asserts c = false -> x <> Z.of_nat (length (x :: r)) mod 256 ->
  forall rest', readRawRecord c (Z.of_nat (length (x :: r))) (record (x :: r) ++ rest) <> Some (x :: r, rest').
Proof.
  intros c x r rest C N rest'. unfold readRawRecord, assert_debug. rewrite C. cbn [andb]. unfold sgetn. set (n := Z.of_nat (length (x :: r))) in *.
  unfold record at 1. fold n. unfold number at 1. cbn [app].
  destruct (n <? size _); [discriminate|]. destruct (readRecordSize _ _) as [[? ?] ?]. intros H. injection H as H _.
  destruct (Z.to_nat (value (atStart c))); cbn [firstn] in H; [discriminate|]. injection H as H _. apply N. symmetry. exact H.
Qed.
Print Assumptions C69_release_refuted.
Example C69_release_refuted_nonvacuous : 10 <> Z.of_nat (length [10; 20; 30]) mod 256 /\
  readRawRecord (Build false [3; 0; 0; 0] [0; 0; 0; 0]) 3 (record [10; 20; 30]) = Some ([3; 0; 0], [3; 0; 0; 0]).
Proof. split; [cbn; lia|reflexivity]. Qed.

(** A group is read with all its entries in their order, on however many lines they are, and the next group follows. *)
Theorem C69_group : forall c fileType multiline bytesPer components entries g rest,
  asserts c = true -> 0 < components -> 0 < bytesPer ->
  Forall (fun e => Z.of_nat (length e) = components * bytesPer) entries ->
  fits (Z.of_nat (length entries) * components * bytesPer) ->
  group (multiline && (4 <? fileType)) entries g ->
  readGroup c fileType bytesPer components multiline (g ++ rest) = Some (Z.of_nat (length entries), concat entries, rest).
Proof. intros c ft multi bp comp entries g rest C Hc Hb F Ft G. exact (read_group c C ft multi bp comp entries g rest Hc Hb F Ft G). Qed.
Print Assumptions C69_group.
Definition five : list (list Z) := [[1]; [2]; [3]; [4]; [5]].
Definition five_file : list Z := record (number 5 ++ number 2) ++ record [1; 2] ++ record [3; 4] ++ record [5].
Example C69_group_nonvacuous : group (true && (4 <? 5)) five five_file /\ Forall (fun e => Z.of_nat (length e) = 1 * 1) five /\
  readGroup checked 5 1 1 true (five_file ++ [77]) = Some (5, [1; 2; 3; 4; 5], [77]).
Proof.
  split; [|split; [repeat constructor|reflexivity]].
  refine (some_entries true five 2 [[[1]; [2]]; [[3]; [4]]; [[5]]] _ _ _ _); [unfold fits; cbn; lia|unfold fits; cbn; lia|discriminate|].
  apply (full_line 2 [[1]; [2]] [[3]; [4]; [5]]); [reflexivity|]. apply (full_line 2 [[3]; [4]] [[5]]); [reflexivity|]. now apply last_line; [|cbn; lia].
Qed.

(** A group that is skipped is skipped as a whole, with all properties of its entries, whatever is in it. *)
Theorem C69_skip : forall c fileType multiline properties n g rest, asserts c = true ->
  unread_group (multiline && (4 <? fileType)) properties n g ->
  skipGroup c fileType properties multiline (g ++ rest) = Some (n, rest).
Proof. intros c ft multi k n g rest C G. exact (skip_group c C ft multi k n g rest G). Qed.
Print Assumptions C69_skip.
Example C69_skip_nonvacuous :
  unread_group (true && (4 <? 5)) 2 3 (head true 3 2 ++ concat (map record [[1; 2]; [3]; [10; 20; 30]; [40]])) /\
  skipGroup checked 5 2 true (head true 3 2 ++ concat (map record [[1; 2]; [3]; [10; 20; 30]; [40]]) ++ [77]) = Some (3, [77]).
Proof.
  split; [|reflexivity]. apply some_unread; try (unfold fits; lia); [repeat constructor; cbn; lia|reflexivity].
Qed.

(** The coordinates: every node in its order, with the bytes of each coordinate. *)
Theorem C69_coordinates : forall c fileType nodes g rest, asserts c = true ->
  coordinates_group (4 <? fileType) (0 <? fileType) nodes g ->
  readCoordinates c fileType (g ++ rest) = Some (nodes, rest).
Proof. intros c ft nodes g rest C G. exact (read_coordinates c C ft nodes g rest G). Qed.
Print Assumptions C69_coordinates.
Definition two_nodes : list (list (list Z)) := [[[1; 0; 0; 0; 0; 0; 0; 0]; [2; 0; 0; 0; 0; 0; 0; 0]]; [[3; 0; 0; 0; 0; 0; 0; 0]; [4; 0; 0; 0; 0; 0; 0; 9]]].
Example C69_coordinates_nonvacuous : coordinates_group (4 <? -1) (0 <? -1) two_nodes (head false 2 2 ++ concat (map (fun l => record (concat l)) [map (@concat Z) two_nodes])).
Proof.
  split; [repeat constructor|]. split; [unfold fits; cbn; lia|].
  refine (some_entries false (map (@concat Z) two_nodes) 2 [map (@concat Z) two_nodes] _ _ _ _); [unfold fits; cbn; lia|unfold fits; cbn; lia|reflexivity|].
  apply last_line; [discriminate|cbn; lia].
Qed.

(** The elements: type after type, each in its order, and each with the nodes (counted from 0) at the corners where the
    file has them. *)
Theorem C69_elements : forall c fileType elements gs rest, asserts c = true ->
  length elements = (if (0 <? fileType)%Z then 4 else 2)%nat -> length gs = length elements ->
  (forall t es g, nth_error elements t = Some es -> nth_error gs t = Some g -> elements_group (4 <? fileType) (0 <? fileType) t es g) ->
  exists lss, readAllElements c fileType (concat gs ++ rest) =
      Some (concat lss, map (@length _) elements ++ (if 0 <? fileType then [] else [0; 0]%nat), rest) /\
    length lss = length elements /\
    forall t es ls, nth_error elements t = Some es -> nth_error lss t = Some ls -> Forall2 (same_element (0 <? fileType) t) es ls.
Proof.
  intros c ft elements gs rest C Le Lg G. unfold readAllElements. fold (is3D ft) in *.
  assert (T : Forall (typed ft) (if is3D ft then [0; 1; 2; 3]%nat else [0; 1]%nat)) by (unfold typed; destruct (is3D ft); repeat constructor).
  destruct (read_types c C ft _ T elements gs rest) as [lss [R1 [R2 R3]]].
  - destruct (is3D ft); destruct elements as [|e0 [|e1 [|e2 [|e3 [|]]]]]; try discriminate Le; destruct gs as [|g0 [|g1 [|g2 [|g3 [|]]]]]; try discriminate Lg; cbn [combine];
      repeat (apply Forall2_cons; [cbn [fst snd]; apply G; reflexivity|]); constructor.
  - exact Lg.
  - rewrite R1. exists lss. split; [destruct (is3D ft); [now rewrite app_nil_r|reflexivity]|]. split; [exact R3|].
    intros t es ls He Hl.
    destruct (is3D ft); destruct elements as [|e0 [|e1 [|e2 [|e3 [|]]]]]; try discriminate Le; destruct lss as [|l0 [|l1 [|l2 [|l3 [|]]]]]; try discriminate R3; cbn [combine] in R2.
    + inversion_clear R2 as [|? ? ? ? A0 B0]. inversion_clear B0 as [|? ? ? ? A1 B1]. inversion_clear B1 as [|? ? ? ? A2 B2]. inversion_clear B2 as [|? ? ? ? A3 _]. cbn [fst snd] in *.
      destruct t as [|[|[|[|t]]]]; cbn [nth_error] in He, Hl; try (destruct t; discriminate); injection He as <-; injection Hl as <-; assumption.
    + inversion_clear R2 as [|? ? ? ? A0 B0]. inversion_clear B0 as [|? ? ? ? A1 _]. cbn [fst snd] in *.
      destruct t as [|[|t]]; cbn [nth_error] in He, Hl; try (destruct t; discriminate); injection He as <-; injection Hl as <-; assumption.
Qed.
Print Assumptions C69_elements.
Definition two_kinds : list (list (list Z)) := [[[1; 2; 3]]; [[2; 4; 5; 3]; [4; 6; 7; 5]]].
Definition two_kinds_files : list (list Z) := [head false 1 1 ++ record (numbers [1; 2; 3]); head false 2 2 ++ record (numbers [2; 4; 5; 3; 4; 6; 7; 5])].
Example C69_elements_nonvacuous :
  (forall t es g, nth_error two_kinds t = Some es -> nth_error two_kinds_files t = Some g -> elements_group (4 <? -1) (0 <? -1) t es g) /\
  readAllElements checked (-1) (concat two_kinds_files) = Some ([[0; 1; 2]; [1; 3; 2; 4]; [3; 5; 4; 6]], [1; 2; 0; 0]%nat, []).
Proof.
  split; [|vm_compute; reflexivity]. intros [|[|t]] es g He Hg; cbn [two_kinds two_kinds_files nth_error] in He, Hg; [..|destruct t; discriminate]; injection He as <-; injection Hg as <-.
  - split; [repeat constructor; cbn; lia|]. split; [unfold fits; cbn; lia|].
    refine (some_entries false (map numbers [[1; 2; 3]]) 1 [map numbers [[1; 2; 3]]] _ _ _ _); [unfold fits; cbn; lia|unfold fits; cbn; lia|reflexivity|].
    apply last_line; [discriminate|cbn; lia].
  - split; [repeat constructor; cbn; lia|]. split; [unfold fits; cbn; lia|].
    refine (some_entries false (map numbers [[2; 4; 5; 3]; [4; 6; 7; 5]]) 2 [map numbers [[2; 4; 5; 3]; [4; 6; 7; 5]]] _ _ _ _); [unfold fits; cbn; lia|unfold fits; cbn; lia|reflexivity|].
    apply last_line; [discriminate|cbn; lia].
Qed.

(** The periodic connections: for each, the pairs of nodes (counted from 0) that have a second node, in their order. *)
Theorem C69_periodic : forall c fileType l b rest, asserts c = true ->
  connections (0 <? fileType) l b -> 3 < fileType \/ fileType <= 0 ->
  readPeriodicNodeConnections c fileType (b ++ rest) =
    Some (map (fun pairs => map (fun p => (fst p - 1, snd p - 1)) (filter (fun p => negb (snd p =? 0)) pairs)) l, rest).
Proof.
  intros c ft l b rest C G K. apply (read_connections c C ft l b rest G). destruct K as [K|K]; [now left|right]. unfold is3D. now apply Z.ltb_ge.
Qed.
Print Assumptions C69_periodic.
Example C69_periodic_nonvacuous :
  connections (0 <? -1) [[(1, 5); (2, 0); (3, 7)]]
    (record (number 1) ++ record (repeat 0 76) ++ record (repeat 1 76) ++ record (number 3) ++ record (numbers [1; 5; 2; 0; 3; 7])).
Proof.
  split; [unfold fits; cbn; lia|].
  exists [record (repeat 0 76) ++ record (repeat 1 76) ++ record (number 3) ++ record (numbers [1; 5; 2; 0; 3; 7])]. split.
  - constructor; [|constructor]. exists (repeat 0 76), (repeat 1 76). repeat split; try (cbn; lia). repeat constructor; cbn; lia.
  - cbn [concat]. now rewrite app_nil_r.
Qed.

Close Scope Z_scope.
(** Zones.  Wanted: every element gets the name of its zone.  Proved: so do the elements of the first type that has any
    (before which there are no elements), for any number of zones; all elements of a file with one type.  Missing: the
    other types, see the next theorem. *)
Theorem C69_zones_partial : forall (A : Type) (unset : A) counts zones, sensible counts zones ->
  exists names, nameZones unset counts (Some zones) = Some names /\ length names = fold_right Nat.add 0 counts /\
    forall type n i z name row, nth_error counts type = Some n -> i < n -> before counts type = 0 ->
      in_zone zones type i z -> nth_error zones z = Some (name, row) -> nth_error names i = Some name.
Proof.
  intros A unset counts zones G. pose proof G as [Four _]. destruct (nameZones_ok counts Four unset zones G) as [names [N1 [N2 N3]]].
  exists names. split; [exact N1|]. split; [exact N2|]. intros type n i z name row Hn Hi Hb Hz Hr.
  destruct (N3 type n i Hn Hi) as [P _]. rewrite Hb in P. exact (P Hi z name row Hz Hr).
Qed.
Print Assumptions C69_zones_partial.
Definition two_zones : list (nat * list nat) := [(100, [1; 1; 1; 1]); (200, [3; 2; 1; 1])].
Lemma two_zones_sensible : sensible [3; 2; 0; 0] two_zones.
Proof.
  assert (K : forall z t n, first two_zones z t n -> t < 4 /\ ((z = 0 /\ n = 1) \/ (z = 1 /\ n = nth t [3; 2; 1; 1] 0))).
  { intros z t n [nm [row [H1 H2]]]. destruct z as [|[|z]]; cbn in H1; [..|destruct z; discriminate]; injection H1 as _ <-;
    destruct t as [|[|[|[|t]]]]; cbn in H2; try (destruct t; discriminate); injection H2 as <-; split; try lia; ((left; split; reflexivity) || (right; split; reflexivity)). }
  split; [reflexivity|]. split; [discriminate|]. split; [intros nm row [H|[H|[]]]; injection H as _ <-; reflexivity|]. split; [|split].
  - intros t n H. destruct (K 0 t n H) as [_ [[_ E]|[E _]]]; [exact E|discriminate].
  - intros y z t m n L H1 H2. destruct (K y t m H1) as [T [[-> ->]|[-> ->]]], (K z t n H2) as [_ [[-> ->]|[-> ->]]]; try lia.
    destruct t as [|[|[|[|t]]]]; cbn; lia.
  - intros z t n cnt H Hc. destruct (K z t n H) as [T [[_ ->]|[_ ->]]]; destruct t as [|[|[|[|t]]]]; cbn in *; try lia; injection Hc as <-; lia.
Qed.
Example C69_zones_partial_nonvacuous : sensible [3; 2; 0; 0] two_zones /\ before [3; 2; 0; 0] 0 = 0 /\ in_zone two_zones 0 2 1 /\
  nameZones 0 [3; 2; 0; 0] (Some two_zones) = Some [100; 100; 200; 0; 0].
Proof.
  split; [exact two_zones_sensible|]. split; [reflexivity|]. split; [|reflexivity].
  split; [exists 3; split; [exists 200, [3; 2; 1; 1]; split; reflexivity|lia]|]. intros n [nm [row [H _]]]. discriminate.
Qed.

(** Refuted: every element gets the name of its zone.  In every file with elements of two types, the last element of each
    type but the first stays without a name: the ends of the zones are counted within the type, but compared with
    positions in the list of all elements.  The others get the name of the zone of another element: the [i]-th element of a
    type gets that of the element as many places later as there are elements of other types before. *)
Theorem C69_zones_refuted : forall (A : Type) (unset : A) counts zones, sensible counts zones ->
  exists names, nameZones unset counts (Some zones) = Some names /\
    (forall type n, nth_error counts type = Some n -> 0 < n -> 0 < before counts type ->
       nth_error names (before counts type + (n - 1)) = Some unset) /\
    (forall type n i z name row, nth_error counts type = Some n -> before counts type + i < n ->
       in_zone zones type (before counts type + i) z -> nth_error zones z = Some (name, row) ->
       nth_error names (before counts type + i) = Some name).
Proof.
  intros A unset counts zones G. pose proof G as [Four _]. destruct (nameZones_ok counts Four unset zones G) as [names [N1 [N2 N3]]].
  exists names. split; [exact N1|]. split.
  - intros type n Hn P B. destruct (N3 type n (n - 1) Hn ltac:(lia)) as [_ Q]. apply Q. lia.
  - intros type n i z name row Hn Hi Hz Hr. destruct (N3 type n i Hn ltac:(lia)) as [Q _]. exact (Q Hi z name row Hz Hr).
Qed.
Print Assumptions C69_zones_refuted.
Example C69_zones_refuted_nonvacuous : 0 < before [3; 2; 0; 0] 1 /\
  nameZones 0 [1; 3; 0; 0] (Some [(100, [1; 1; 1; 1]); (200, [1; 3; 1; 1])]) = Some [200; 100; 200; 0].
Proof. split; [cbn; lia|reflexivity]. Qed.

(** Refuted: the elements of a two-dimensional file without zones are in the zone "default".  The zone is made, but the
    function returns before it is applied. *)
Theorem C69_default_zone_refuted : forall (A : Type) (unset : A) counts,
  exists names, nameZones unset counts None = Some names /\ Forall (fun name => name = unset) names.
Proof. intros A unset counts. eexists. split; [reflexivity|]. apply Forall_forall. intros x Hx. now apply repeat_spec in Hx. Qed.
Print Assumptions C69_default_zone_refuted.
Example C69_default_zone_refuted_nonvacuous : nameZones 7 [2; 1; 0; 0] None = Some [7; 7; 7]. Proof. reflexivity. Qed.
