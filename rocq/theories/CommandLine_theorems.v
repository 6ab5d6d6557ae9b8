(** C65: the command line. *)
From Coq Require Import String Ascii List Arith Bool ZArith Lia.
From Verif Require Import CommandLine_model CommandLine_spec CommandLine_proofs CommandLineLoop_proofs CommandLineEnd_proofs.
Import ListNotations.

(** For all declared options, with the special option -- and --help among them, and all words: the program goes on exactly
    when the words are a command line without --help that has all required options and arguments that are accepted; the
    options and the arguments for the libraries are then those of right_command. *)
Theorem C65_command_line : forall (D : Type) (extractDouble : word -> D * bool) declared done help ddone dhelp,
  nth_error declared done = Some ddone -> flag ddone -> nth_error declared help = Some dhelp -> flag dhelp -> d_default dhelp = VFlag false ->
  forall name words l libraries,
  parse_options extractDouble (registerAll declared) done help (name :: words) = Good (l, libraries) <->
  right_command extractDouble declared done help name words l libraries.
Proof.
  intros D extractDouble declared done help ddone dhelp H1 H2 H3 H4 H5 name words l libraries. split.
  - eapply parse_sound; eassumption.
  - eapply parse_complete; eassumption.
Qed.
Print Assumptions C65_command_line.

(** In all other cases it stops with a message: it never reads outside the command line. *)
Theorem C65_defined : forall (D : Type) (extractDouble : word -> D * bool) declared done help ddone dhelp,
  nth_error declared done = Some ddone -> flag ddone -> nth_error declared help = Some dhelp -> flag dhelp -> d_default dhelp = VFlag false ->
  forall name words, parse_options extractDouble (registerAll declared) done help (name :: words) <> Undefined.
Proof. intros. eapply parse_defined; eassumption. Qed.
Print Assumptions C65_defined.

(** A number that fits the type of an option is given to it. *)
Theorem C65_numbers : forall (D : Type) (extractDouble : word -> D * bool) s e ds n, sign s e -> digits ds n ->
  (forall low high, (low <= e * n <= high)%Z -> forall v, accepted extractDouble (Signed low high) (Some (s ++ ds)) v <-> v = VInteger (e * n)) /\
  (forall bound, (e = 1)%Z -> (n < bound)%Z -> forall v, accepted extractDouble (Unsigned bound) (Some (s ++ ds)) v <-> v = VInteger n).
Proof.
  intros D extractDouble s e ds n S H. split.
  - intros low high L v. split.
    + intros A. apply convert_iff in A. pose proof (accept_signed extractDouble low high [] s ds e n (Forall_nil _) S H) as B. apply convert_iff in B. cbn [app] in B. assert (E : Some v = Some (VInteger (Z.max low (Z.min high (e * n))))) by (rewrite <- A, <- B; reflexivity).
      injection E as ->. f_equal. lia.
    + intros ->. pose proof (accept_signed extractDouble low high [] s ds e n (Forall_nil _) S H) as B. cbn [app] in B. replace (Z.max low (Z.min high (e * n))) with (e * n)%Z in B by lia. exact B.
  - intros bound -> L v. pose proof (accept_unsigned extractDouble bound [] s ds 1 n (Forall_nil _) S H) as B. cbn [app Z.eqb] in B. replace (n <? bound)%Z with true in B by (symmetry; now apply Z.ltb_lt). split.
    + intros A. apply convert_iff in A. apply convert_iff in B. assert (E : Some v = Some (VInteger n)) by (rewrite <- A, <- B; reflexivity). congruence.
    + intros ->. exact B.
Qed.
Print Assumptions C65_numbers.

(** Text with other characters than white space, a sign and digits is not accepted. *)
Theorem C65_no_numbers : forall (D : Type) (extractDouble : word -> D * bool) w c t v, In c w -> ~ space c -> c <> "+"%char -> c <> "-"%char -> (forall d, d <= 9 -> c <> ascii_of_nat (48 + d)) ->
  (exists low high, t = Signed low high) \/ (exists bound, t = Unsigned bound) -> ~ accepted extractDouble t (Some w) v.
Proof.
  intros D extractDouble w c t v I N1 N2 N3 N4 T A.
  assert (G : exists b s ds e n, w = b ++ s ++ ds /\ Forall space b /\ sign s e /\ digits ds n) by (destruct T as [(low & high & ->)|(bound & ->)]; inversion A; subst; repeat eexists; eassumption).
  destruct G as (b & s & ds & e & n & -> & B & S & H). rewrite !in_app_iff in I. destruct I as [I|[I|I]].
  - apply N1. rewrite Forall_forall in B. now apply B.
  - destruct S; cbn in I; intuition congruence.
  - clear - H I N4. induction H; [destruct I|]. apply in_app_iff in I. destruct I as [I|[<-|[]]]; [auto|]. now apply (N4 d).
Qed.
Print Assumptions C65_no_numbers.

(** parsePoint reads the numbers of a point, and where it stops. *)
Theorem C65_point : forall (D : Type) (stod : word -> option (D * nat)), (forall w d n, stod w = Some (d, n) -> 0 < n <= length w) ->
  forall DIM b w ds e, 0 < DIM ->
  parseCoordinates stod DIM (b ++ w) (length b) = Good (ds, e) <->
  length ds = DIM /\ exists ts u, w = ts ++ u /\ e = length b + length ts /\ coordinates (number stod) ds ts u.
Proof.
  intros D stod SL DIM b w ds e L. split.
  - intros H. assert (SL' : forall w d n, stod w = Some (d, n) -> n <= length w) by (intros; eapply SL; eassumption). destruct (point_sound stod SL' DIM _ _ ds e L H) as (E & ts & E1 & E2). split; [exact E|].
    rewrite skipn_app_exact in E1. exists ts, (skipn e (b ++ w)). split; [exact E1|]. split; [|exact E2].
    pose proof (point_complete stod ds ts (skipn e (b ++ w)) E2) as P. rewrite E in P. rewrite <- E1 in P. rewrite P in H; [now injection H as <-|].
    intros d t u N ->. apply SL in N. cbn in N. lia.
  - intros (<- & ts & u & -> & -> & C). apply point_complete; [exact C|]. intros d t u' N ->. apply SL in N. cbn in N. lia.
Qed.
Print Assumptions C65_point.

(** ** Examples *)
Definition word_of (s : string) : word := list_ascii_of_string s.
Definition e_double (w : word) : Z * bool := let r := readDigits 0 w in (fst r, atEnd (snd r)).
Definition size_t : type := Unsigned 18446744073709551616.
Definition e_declared : list (@declaration Z) :=
  [Declare_ None (word_of "") false Flag (VFlag false); Declare_ (Some "?"%char) (word_of "help") false Flag (VFlag false);
   Declare_ (Some "n"%char) (word_of "numElems") true size_t (VInteger 0); Declare_ (Some "f"%char) (word_of "file") false Text (VText (word_of "out"));
   Declare_ (Some "v"%char) (word_of "verbose") false Flag (VFlag false); Declare_ None (word_of "shift") false (Signed (-100) 100) (VInteger 7);
   Declare_ (Some "t"%char) (word_of "time") false Real (VReal 1%Z); Declare_ (Some "n"%char) (word_of "number") false Text (VText []);
   Declare_ (Some "c"%char) (word_of "char") false Character (VCharacter "a"%char)].
Definition e_parse (l : list string) := parse_options e_double (registerAll e_declared) 0 1 (map word_of ("prog"%string :: l)).
Definition summary (x : outcome (list (@opt Z) * list word)) :=
  match x with Good (l, libs) => Some (map (fun o => (used o, current o)) l, libs) | _ => None end.
Local Open Scope string_scope.
Example C65_command_line_nonvacuous :
  nth_error e_declared 0 = Some (Declare_ None (word_of "") false Flag (VFlag false)) /\
  nth_error e_declared 1 = Some (Declare_ (Some "?"%char) (word_of "help") false Flag (VFlag false)) /\
  summary (e_parse ["-vn"; "12"; "--shift"; "-5"; "--file"; "-x"; "-n"; "30"; "--time"; "2"; "--"; "-pc"; "lu"]) =
    Some ([(true, VFlag true); (false, VFlag false); (true, VInteger 30); (true, VText (word_of "-x")); (true, VFlag true); (true, VInteger (-5)); (true, VReal 2%Z);
           (false, VText []); (false, VCharacter "a"%char)], [word_of "prog"; word_of "-pc"; word_of "lu"]) /\
  summary (e_parse ["--numElems"; "3"]) =
    Some ([(false, VFlag false); (false, VFlag false); (true, VInteger 3); (false, VText (word_of "out")); (false, VFlag false); (false, VInteger 7); (false, VReal 1%Z);
           (false, VText []); (false, VCharacter "a"%char)], []) /\
  map e_parse [["-v"]; ["-n"; "3"; "--help"]; ["-nv"; "3"]; ["-n"]; ["-n"; "3x"]; ["-n"; "3"; "file"]; ["-n"; "3"; "-"]; ["-n"; "3"; "--nothing"]] =
    [Stopped; Stopped; Stopped; Stopped; Stopped; Stopped; Stopped; Stopped].
Proof. repeat split; vm_compute; reflexivity. Qed.
Example C65_numbers_nonvacuous : sign ["-"%char] (-1) /\ digits (word_of "12") 12 /\ (-100 <= -1 * 12 <= 100)%Z /\
  ~ space "x"%char /\ In "x"%char (word_of "3x").
Proof.
  split; [constructor|]. split; [|split; [lia|split; [cbv; intuition discriminate|cbn; tauto]]].
  change (digits (([] ++ [ascii_of_nat (48 + 1)]) ++ [ascii_of_nat (48 + 2)]) (10 * (10 * 0 + Z.of_nat 1) + Z.of_nat 2)). repeat constructor.
Qed.
Definition e_stod (w : word) : option (Z * nat) := let r := readDigits 0 w in let n := length w - length (snd r) in if Nat.ltb 0 n then Some (fst r, n) else None.
Example C65_point_nonvacuous : (forall w d n, e_stod w = Some (d, n) -> 0 < n <= length w) /\
  parseCoordinates e_stod 3 (word_of "at 12,0,7;1,2,3") 3 = Good ([12; 0; 7]%Z, 9) /\
  parseCoordinates e_stod 3 (word_of "12,0;7") 0 = Stopped /\ parseCoordinates e_stod 2 (word_of "12,") 0 = Stopped.
Proof.
  split; [|repeat split; vm_compute; reflexivity]. intros w d n H. unfold e_stod in H. destruct (Nat.ltb 0 _) eqn:E; [|discriminate]. injection H as _ <-. apply Nat.ltb_lt in E. lia.
Qed.

(** ** Where it is not so: texts that are no numbers of the type of the option are accepted without a message.  No text and a
    sign alone are 0, numbers that are too large are replaced by the largest one, and for unsigned types -1 is the largest one;
    an option of type char accepts no character at all. *)
Theorem C65_bad_numbers_refuted :
  map (fun a => option_map (fun s => nth_error (fst s) 2) (summary (e_parse ["-n"; a]))) [""; "-"; " "; "-1"; "99999999999999999999"] =
    [Some (Some (true, VInteger 0)); Some (Some (true, VInteger 0)); Some (Some (true, VInteger 0)); Some (Some (true, VInteger 18446744073709551615)); Some (Some (true, VInteger 18446744073709551615))] /\
  option_map (fun s => nth_error (fst s) 5) (summary (e_parse ["-n"; "1"; "--shift"; "1000"])) = Some (Some (true, VInteger 100)) /\
  (forall c v, ~ space c -> ~ accepted e_double Character (Some [c]) v) /\ e_parse ["-n"; "1"; "-c"; "x"] = Stopped.
Proof.
  split; [vm_compute; reflexivity|]. split; [vm_compute; reflexivity|]. split; [|vm_compute; reflexivity].
  intros c v N A. inversion A as [ | | | | |? B]; subst. inversion B; contradiction.
Qed.
Print Assumptions C65_bad_numbers_refuted.
