(** Model of GlobalIndexing::communicatePushPullElements (kernel/Utilities/GlobalIndexing.cpp:
    404-862): the exchange of offsets between [n] MPI processes in two rounds.

    A system state holds the processes and the messages in flight.  Each process executes the
    statements of communicatePushPullElements; the interleaving is arbitrary, a receive takes
    any message addressed to the process (MPI_ANY_SOURCE; the guarantee that two messages
    between the same processes do not overtake each other is not used).  MPI_Waitall may
    return as soon as it is called when [eager] (the messages have been buffered), and
    otherwise only when all messages of the process have been received.  MPI_Barrier returns
    only when all processes have called it.  An exception or failed assertion stops the
    process: phase [Failed]. *)
From Coq Require Import List Arith Bool.
From Verif Require Import StdMap_model GlobalIndexing_model.
Import ListNotations.

Definition kindCode (k : Kind) : nat := match k with KElement => 0 | KFace => 1 | KEdge => 2 | KNode => 3 end.
Definition tagOf (k : Kind) (x : nat) : nat := 4 * x + kindCode k.

(** GlobalIndexing.cpp:588-621 elementMessage, faceMessage, edgeMessage, nodeMessage: the four
    functions differ in the tag and the map.  [None]: std::map::at throws. *)
Fixpoint offsetsOf (g : GlobalIndexing) (k : Kind) (x : nat) (us : list nat) : option (list nat) :=
  match us with
  | [] => Some []
  | u :: us => match mfind Nat.ltb x (table (offsets_ g u) k), offsetsOf g k x us with
               | Some v, Some l => Some (v :: l)
               | _, _ => None
               end
  end.
Definition objectMessage (g : GlobalIndexing) (k : Kind) (x : nat) (message : list nat) : option (list nat) :=
  match offsetsOf g k x (includedUnknowns_ g) with
  | Some l => Some (message ++ tagOf k x :: l)
  | None => None
  end.

Section Messages.
Variables (m : Mesh) (p : nat) (g : GlobalIndexing) (target : nat).
(** message, sendTags, secondRoundTags *)
Definition Building := (list nat * list nat * list nat)%type.
Definition memb (t : nat) (s : list nat) : bool := existsb (Nat.eqb t) s.
(** GlobalIndexing.cpp:510-514: send the object once *)
Definition sendOnce (k : Kind) (x : nat) (b : Building) : option Building :=
  let '(message, sendTags, second) := b in
  if memb (tagOf k x) sendTags then Some b
  else match objectMessage g k x message with
       | Some message => Some (message, sinsert Nat.ltb (tagOf k x) sendTags, second)
       | None => None
       end.
Definition laterRound (k : Kind) (x : nat) (b : Building) : Building :=
  let '(message, sendTags, second) := b in (message, sendTags, sinsert Nat.ltb (tagOf k x) second).
(** GlobalIndexing.cpp:505-523: a face.  [None]: the face has no left element. *)
Definition addFace (x : nat) (b : Building) : option Building :=
  match firstElement m p KFace x with
  | None => None
  | Some leftElement =>
      if owner m leftElement =? p then sendOnce KFace x b
      else if negb (owner m leftElement =? target) then Some (laterRound KFace x b) else Some b
  end.
(** GlobalIndexing.cpp:526-544 and 546-563: an edge or a node *)
Definition addEdgeOrNode (k : Kind) (x : nat) (b : Building) : option Building :=
  match firstElement m p k x with
  | None => None
  | Some first =>
      if owner m first =? p then sendOnce k x b
      else if existsb (fun e => owner m e =? target) (filter (visible m p) (elementsOf m k x))
      then Some b else Some (laterRound k x b)
  end.
Fixpoint addAll (add : nat -> Building -> option Building) (xs : list nat) (b : Building) : option Building :=
  match xs with
  | [] => Some b
  | x :: xs => match add x b with None => None | Some b => addAll add xs b end
  end.
Definition addElement (e : nat) (b : Building) : option Building :=
  let '(message, sendTags, second) := b in
  bind (objectMessage g KElement e message) (fun message =>
  bind (addAll addFace (objectsOf m KFace e) (message, sendTags, second)) (fun b =>
  bind (addAll (addEdgeOrNode KEdge) (objectsOf m KEdge e) b) (fun b =>
  if 1 <? dimension m then addAll (addEdgeOrNode KNode) (objectsOf m KNode e) b else Some b))).
(** GlobalIndexing.cpp:486-564 createInitialMessage: message and secondRoundTags *)
Definition createInitialMessage (elements : list nat) : option (list nat * list nat) :=
  match addAll addElement elements ([], [], []) with
  | Some (message, _, second) => Some (message, second)
  | None => None
  end.
(** GlobalIndexing.cpp:566-586 createSecondMessage *)
Fixpoint createSecondMessage (tags : list nat) (message : list nat) : option (list nat) :=
  match tags with
  | [] => Some message
  | tag :: tags =>
      bind (match tag mod 4 with
            | 1 => objectMessage g KFace (tag / 4) message
            | 2 => objectMessage g KEdge (tag / 4) message
            | 3 => objectMessage g KNode (tag / 4) message
            | _ => None
            end) (createSecondMessage tags)
  end.
End Messages.

(** offsets_[unknown].<kind>Offsets_[id] = message[offset + (unknownIndex++)] for the unknowns *)
Fixpoint storeOffsets (k : Kind) (id : nat) (us : list nat) (values : list nat) (offsets : nat -> Offsets) : option (nat -> Offsets) :=
  match us, values with
  | [], _ => Some offsets
  | u :: us, v :: values => storeOffsets k id us values (upd offsets u (putOffset (offsets u) k id v))
  | _ :: _, [] => None
  end.
Definition withOffsets (g : GlobalIndexing) (o : nat -> Offsets) : GlobalIndexing :=
  {| offsets_ := o; totalNumberOfUnknowns_ := totalNumberOfUnknowns_ g;
     localNumberOfBasisFunctions_ := localNumberOfBasisFunctions_ g;
     globalNumberOfBasisFunctions_ := globalNumberOfBasisFunctions_ g; includedUnknowns_ := includedUnknowns_ g |}.
(** GlobalIndexing.cpp:635-669: the loop over the parts of the message; [fuel] bounds the
    number of parts by the length of the message *)
Fixpoint processParts (fuel : nat) (message : list nat) (g : GlobalIndexing) : option GlobalIndexing :=
  match message, fuel with
  | [], _ => Some g
  | tag :: rest, S fuel =>
      let n := length (includedUnknowns_ g) in
      let kind := match tag mod 4 with 0 => KElement | 1 => KFace | 2 => KEdge | _ => KNode end in
      match storeOffsets kind (tag / 4) (includedUnknowns_ g) (firstn n rest) (offsets_ g) with
      | Some o => processParts fuel (skipn n rest) (withOffsets g o)
      | None => None
      end
  | _, O => None
  end.
(** GlobalIndexing.cpp:623-670 processMessage *)
Definition processMessage (message : list nat) (g : GlobalIndexing) : option GlobalIndexing :=
  if length message mod (1 + length (includedUnknowns_ g)) =? 0
  then processParts (length message) message g else None.

(** GlobalIndexing.cpp:404-482 verifyCompleteIndex on process [p]: the objects of the process
    are those of the elements it sees *)
Definition checkOne (m : Mesh) (g : GlobalIndexing) (k : Kind) (x : nat) : bool :=
  forallb (fun u => match getGlobalIndex g k x u with
                    | Some offset => localNumberOfBasisFunctions m k x u + offset <=? globalNumberOfBasisFunctions_ g
                    | None => false
                    end) (includedUnknowns_ g).
Definition isEmpty {A} (l : list A) : bool := match l with [] => true | _ => false end.
Definition verifyCompleteIndex (m : Mesh) (p : nat) (g : GlobalIndexing) : bool :=
  forallb (fun u => let o := offsets_ g u in
     includedInIndex_ o ||
     ((blockStart_ o =? 0) && (numberOfBasisFunctionsInBlock_ o =? 0) &&
      isEmpty (table o KElement) && isEmpty (table o KFace) && isEmpty (table o KEdge) && isEmpty (table o KNode)))
    (seq 0 (totalNumberOfUnknowns_ g)) &&
  forallb (fun e =>
     checkOne m g KElement e && forallb (checkOne m g KFace) (objectsOf m KFace e) &&
     forallb (checkOne m g KEdge) (objectsOf m KEdge e) &&
     (if 1 <? dimension m then forallb (checkOne m g KNode) (objectsOf m KNode e) else true))
    (filter (visible m p) (elements m)).

(** The push and pull elements (MeshManipulator_Impl.h:1604-1640): an element is pushed by its
    owner to every other process that has it in its shadow layer. *)
Definition pushElements (m : Mesh) (p q : nat) : list nat :=
  if p =? q then [] else filter (fun e => (owner m e =? p) && visible m q e) (elements m).
Definition pushMap (m : Mesh) (n p : nat) : list (nat * list nat) :=
  filter (fun entry => negb (isEmpty (snd entry))) (map (fun q => (q, pushElements m p q)) (procs n)).
Definition pullMap (m : Mesh) (n q : nat) : list (nat * list nat) :=
  filter (fun entry => negb (isEmpty (snd entry))) (map (fun p => (p, pushElements m p q)) (procs n)).

Inductive Phase :=
  | Send1 (todo : list (nat * list nat)) | Recv1 (left : nat) | Waitall1 | Barrier1
  | Send2 (todo : list (nat * list nat)) | Recv2 (left : nat) | Waitall2 | Barrier2 | Done | Failed.
Record Proc := {
  phase : Phase;
  indexing_ : GlobalIndexing;
  secondRound : list (nat * list nat);
  secondRoundReceives : nat
}.
Definition Message := (nat * nat * list nat)%type.   (* source, destination, data *)
Record System := { proc : nat -> Proc; network : list Message }.

Definition setProc (s : System) (p : nat) (x : Proc) : System :=
  {| proc := fun q => if q =? p then x else proc s q; network := network s |}.
Definition setPhase (x : Proc) (ph : Phase) : Proc :=
  {| phase := ph; indexing_ := indexing_ x; secondRound := secondRound x; secondRoundReceives := secondRoundReceives x |}.
Definition post (s : System) (msg : Message) : System := {| proc := proc s; network := network s ++ [msg] |}.
Definition without (s : System) (a b : list Message) : System := {| proc := proc s; network := a ++ b |}.

(** GlobalIndexing.cpp:769-792, one entry of the loop: the new process and the message *)
Definition sendFirst (m : Mesh) (p : nat) (x : Proc) (target : nat) (elements : list nat) (rest : list (nat * list nat))
  : option (Proc * list nat) :=
  match createInitialMessage m p (indexing_ x) target elements with
  | None => None
  | Some (message, tags) =>
      let second := mput Nat.ltb target tags (secondRound x) in
      let need := negb (isEmpty tags) in
      Some ({| phase := Send1 rest; indexing_ := indexing_ x;
               secondRound := if need then second else merase Nat.ltb target second;
               secondRoundReceives := secondRoundReceives x |},
            message ++ [if need then 1 else 0])
  end.
(** GlobalIndexing.cpp:801-810, one received message of the first round *)
Definition receiveFirst (x : Proc) (left : nat) (data : list nat) : option Proc :=
  match rev data with
  | [] => None
  | flag :: body =>
      match processMessage (rev body) (indexing_ x) with
      | None => None
      | Some g => Some {| phase := Recv1 left; indexing_ := g; secondRound := secondRound x;
                          secondRoundReceives := if flag =? 0 then secondRoundReceives x else S (secondRoundReceives x) |}
      end
  end.
(** GlobalIndexing.cpp:829-840, one entry of the loop *)
Definition sendSecond (x : Proc) (tags : list nat) : option (list nat) := createSecondMessage (indexing_ x) tags [].
(** GlobalIndexing.cpp:844-849 *)
Definition receiveSecond (x : Proc) (left : nat) (data : list nat) : option Proc :=
  match processMessage data (indexing_ x) with
  | None => None
  | Some g => Some {| phase := Recv2 left; indexing_ := g; secondRound := secondRound x;
                      secondRoundReceives := secondRoundReceives x |}
  end.
Definition atBarrier1 (ph : Phase) : Prop :=
  match ph with Barrier1 | Send2 _ | Recv2 _ | Waitall2 | Barrier2 | Done => True | _ => False end.
Definition atBarrier2 (ph : Phase) : Prop := match ph with Barrier2 | Done => True | _ => False end.

Section System.
Variables (m : Mesh) (n : nat) (eager : bool).

Inductive step : System -> System -> Prop :=
  | do_send1 s p target elements rest x data :
      p < n -> phase (proc s p) = Send1 ((target, elements) :: rest) ->
      sendFirst m p (proc s p) target elements rest = Some (x, data) ->
      step s (post (setProc s p x) (p, target, data))
  | fail_send1 s p target elements rest :
      p < n -> phase (proc s p) = Send1 ((target, elements) :: rest) ->
      sendFirst m p (proc s p) target elements rest = None ->
      step s (setProc s p (setPhase (proc s p) Failed))
  | sent1 s p : p < n -> phase (proc s p) = Send1 [] ->
      step s (setProc s p (setPhase (proc s p) (Recv1 (length (pullMap m n p)))))
  | do_recv1 s p left a b source data x :
      p < n -> phase (proc s p) = Recv1 (S left) -> network s = a ++ (source, p, data) :: b ->
      receiveFirst (proc s p) left data = Some x -> step s (without (setProc s p x) a b)
  | fail_recv1 s p left a b source data :
      p < n -> phase (proc s p) = Recv1 (S left) -> network s = a ++ (source, p, data) :: b ->
      receiveFirst (proc s p) left data = None -> step s (without (setProc s p (setPhase (proc s p) Failed)) a b)
  | received1 s p : p < n -> phase (proc s p) = Recv1 0 -> step s (setProc s p (setPhase (proc s p) Waitall1))
  | waited1 s p : p < n -> phase (proc s p) = Waitall1 ->
      eager = true \/ (forall target data, ~ In (p, target, data) (network s)) ->
      step s (setProc s p (setPhase (proc s p) Barrier1))
  | barrier1 s p : p < n -> phase (proc s p) = Barrier1 -> (forall q, q < n -> atBarrier1 (phase (proc s q))) ->
      step s (setProc s p (setPhase (proc s p) (Send2 (secondRound (proc s p)))))
  | do_send2 s p target tags rest data :
      p < n -> phase (proc s p) = Send2 ((target, tags) :: rest) -> sendSecond (proc s p) tags = Some data ->
      step s (post (setProc s p (setPhase (proc s p) (Send2 rest))) (p, target, data))
  | fail_send2 s p target tags rest :
      p < n -> phase (proc s p) = Send2 ((target, tags) :: rest) -> sendSecond (proc s p) tags = None ->
      step s (setProc s p (setPhase (proc s p) Failed))
  | sent2 s p : p < n -> phase (proc s p) = Send2 [] ->
      step s (setProc s p (setPhase (proc s p) (Recv2 (secondRoundReceives (proc s p)))))
  | do_recv2 s p left a b source data x :
      p < n -> phase (proc s p) = Recv2 (S left) -> network s = a ++ (source, p, data) :: b ->
      receiveSecond (proc s p) left data = Some x -> step s (without (setProc s p x) a b)
  | fail_recv2 s p left a b source data :
      p < n -> phase (proc s p) = Recv2 (S left) -> network s = a ++ (source, p, data) :: b ->
      receiveSecond (proc s p) left data = None -> step s (without (setProc s p (setPhase (proc s p) Failed)) a b)
  | received2 s p : p < n -> phase (proc s p) = Recv2 0 -> step s (setProc s p (setPhase (proc s p) Waitall2))
  | waited2 s p : p < n -> phase (proc s p) = Waitall2 ->
      eager = true \/ (forall target data, ~ In (p, target, data) (network s)) ->
      step s (setProc s p (setPhase (proc s p) Barrier2))
  | barrier2 s p : p < n -> phase (proc s p) = Barrier2 -> (forall q, q < n -> atBarrier2 (phase (proc s q))) ->
      step s (setProc s p (setPhase (proc s p) (if verifyCompleteIndex m p (indexing_ (proc s p)) then Done else Failed))).

(** All processes have numbered their own objects and call communicatePushPullElements. *)
Definition initial (r : nat -> GlobalIndexing) : System :=
  {| proc := fun p => {| phase := Send1 (pushMap m n p); indexing_ := r p; secondRound := []; secondRoundReceives := 0 |};
     network := [] |}.
Inductive reachable (r : nat -> GlobalIndexing) : System -> Prop :=
  | reach_initial : reachable r (initial r)
  | reach_step s t : reachable r s -> step s t -> reachable r t.
End System.
