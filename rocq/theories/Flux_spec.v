(** The equations that the applications solve and what is asked of a numerical flux. *)
From Coq Require Import List Arith Reals.
Import ListNotations.
Local Open Scope R_scope.

(** f 0 + ... + f (n-1) *)
Fixpoint sum (n : nat) (f : nat -> R) : R :=
  match n with O => 0 | S n' => sum n' f + f n' end.
Definition dot (n : nat) (u v : nat -> R) : R := sum n (fun i => u i * v i).

(** vectors of the program that hold the first n values *)
Definition vec (n : nat) (u : nat -> R) : list R := map u (seq 0 n).

(** conserved variables in d dimensions: density (or height), momentum, energy *)
Record state := State { density : R; momentum : nat -> R; energy : R }.
Definition euler (d : nat) (s : state) : list R := density s :: vec d (momentum s) ++ [energy s].
Definition shallow1 (s : state) : list R := [density s; momentum s 0].
Definition shallow2 (s : state) : list R := [density s; momentum s 0; momentum s 1].

Section Euler.
  Variables (gamma : R) (d : nat).
  Definition pressure (s : state) : R :=
    (gamma - 1) * (energy s - dot d (momentum s) (momentum s) / (2 * density s)).
  (** the flux of a state in direction n: rho u.n, rho u (u.n) + p n, (E + p) u.n with rho u the momentum *)
  Definition eulerPhysical (s : state) (n : nat -> R) : state :=
    let mn := dot d (momentum s) n in
    State mn
          (fun i => momentum s i / density s * mn + pressure s * n i)
          ((energy s + pressure s) / density s * mn).
  (** a gas: positive density and pressure *)
  Definition gas (s : state) : Prop := 0 < density s /\ 0 < pressure s.

  (** the averages of Roe: velocity, enthalpy and speed of sound *)
  Definition enthalpy (s : state) : R := (energy s + pressure s) / density s.
  Definition roeMean (x y : R) (l r : state) : R :=
    (sqrt (density l) * x + sqrt (density r) * y) / (sqrt (density l) + sqrt (density r)).
  Definition roeVelocity (l r : state) (i : nat) : R :=
    roeMean (momentum l i / density l) (momentum r i / density r) l r.
  Definition roeSound (l r : state) : R :=
    sqrt ((gamma - 1) * (roeMean (enthalpy l) (enthalpy r) l r - dot d (roeVelocity l r) (roeVelocity l r) / 2)).
End Euler.

(** a state seen in a wall: no flow through and along it *)
Definition reversed (s : state) : state := State (density s) (fun i => - momentum s i) (energy s).

Definition opposite (n : nat -> R) : nat -> R := fun i => - n i.
Definition length_of (d : nat) (n : nat -> R) : R := sqrt (dot d n n).

(** the negative of a vector *)
Definition neg (v : list R) : list R := map Ropp v.

(** Shallow granular flow over a plane: gravity is [epsilon * cosine]. In a nearly dry place (height at most
    [dryLimit]) the velocity is taken to be zero. *)
Section Shallow.
  Variables dryLimit epsilon cosine alpha : R.
  Definition speed (s : state) (i : nat) : R :=
    if Rlt_dec dryLimit (density s) then momentum s i / density s else 0.
  Definition hydrostatic (h : R) : R := epsilon / 2 * cosine * h * h.
  (** one dimension, [alpha] the shape factor *)
  Definition shallowPhysical1 (s : state) (n : R) : list R :=
    [momentum s 0 * n; (momentum s 0 * speed s 0 * alpha + hydrostatic (density s)) * n].
  (** two dimensions *)
  Definition shallowPhysical2 (s : state) (nx ny : R) : list R :=
    [momentum s 0 * nx + momentum s 1 * ny;
     momentum s 0 * (speed s 0 * nx + speed s 1 * ny) + hydrostatic (density s) * nx;
     momentum s 1 * (speed s 0 * nx + speed s 1 * ny) + hydrostatic (density s) * ny].
  (** no negative height, and nothing moves where there is nothing *)
  Definition flow (s : state) : Prop :=
    0 <= density s /\ (density s = 0 -> momentum s 0 = 0 /\ momentum s 1 = 0).
End Shallow.

(** Channel of a given width; density and momentum are integrated over the width. *)
Section Channel.
  Variables dryLimit epsilon cosine width : R.
  Definition channelPhysical (s : state) (n : R) : list R :=
    let h := density s / width in
    let u := if Rlt_dec dryLimit h then momentum s 0 / density s else 0 in
    [momentum s 0 * n; (momentum s 0 * u + width * (epsilon / 2 * cosine * h * h)) * n].
End Channel.

(** A vector with the values of nV unknowns for nB basis functions: the entry for unknown iV and function iB. *)
Definition entry (v : list R) (nB iV iB : nat) : R := nth (nB * iV + iB) v 0.
(** the finite element function with the given coefficients for unknown iV, at a point where the basis functions have
    the values phi *)
Definition trace (phi : list R) (c : list R) (iV : nat) : R :=
  sum (length phi) (fun b => nth b phi 0 * entry c (length phi) iV b).
(** the same, with the weak form of unknown iV tested with the function that has the coefficients w *)
Definition tested (w : nat -> R) (phi v : list R) (iV : nat) : R :=
  sum (length phi) (fun b => w b * entry v (length phi) iV b).
Definition value (w : nat -> R) (phi : list R) : R := sum (length phi) (fun b => w b * nth b phi 0).
(** the traces of all unknowns (in d dimensions) as a state *)
Definition traceState (d : nat) (phi c : list R) : state :=
  State (trace phi c 0) (fun i => trace phi c (S i)) (trace phi c (S d)).

(** the mirror image of a shallow flow in a wall with unit normal (nx, ny) *)
Definition mirrored (s : state) (nx ny : R) : state :=
  State (density s)
    (fun i => momentum s i - 2 * (momentum s 0 * nx + momentum s 1 * ny) * (if (i =? 0)%nat then nx else ny)) 0.

(** sums and multiples of states *)
Definition added (s t : state) : state :=
  State (density s + density t) (fun i => momentum s i + momentum t i) (energy s + energy t).
Definition scaled (c : R) (s : state) : state := State (c * density s) (fun i => c * momentum s i) (c * energy s).

(** The waves of a discontinuity, for the linear equations with the averaged velocity u, enthalpy H and speed of sound
    c: two sound waves with the speeds u.n + c and u.n - c, and what moves with the flow with speed u.n, across which
    neither the normal velocity nor the pressure changes. *)
Section Waves.
  Variables (gamma : R) (d : nat) (l r : state) (n : nat -> R).
  Let u := roeVelocity l r.
  Let c := roeSound gamma d l r.
  Let H := roeMean (enthalpy gamma d l) (enthalpy gamma d r) l r.
  Definition soundForward : state := State 1 (fun i => u i + c * n i) (H + c * dot d u n).
  Definition soundBackward : state := State 1 (fun i => u i - c * n i) (H - c * dot d u n).
  Definition carried (w : state) : Prop :=
    dot d (momentum w) n = density w * dot d u n /\
    energy w = dot d u (momentum w) - density w * (dot d u u / 2).
  Definition waves (a b : R) (w : state) : Prop :=
    carried w /\
    euler d r = euler d (added l (added (scaled a soundForward) (added (scaled b soundBackward) w))).
  (** the absolute value of a speed, smoothed near 0 *)
  Definition smoothed (x : R) : R :=
    if Rlt_dec (Rabs x) (/ 100) then (x * x + / 100 * / 100) / (2 * / 100) else Rabs x.
  (** the mean of the fluxes, minus half of every wave times its speed *)
  Definition roeWaves (a b : R) (w : state) : state :=
    added (scaled (/ 2) (added (eulerPhysical gamma d l n) (eulerPhysical gamma d r n)))
          (scaled (- / 2) (added (scaled (smoothed (dot d u n + c) * a) soundForward)
                          (added (scaled (smoothed (dot d u n - c) * b) soundBackward)
                                 (scaled (smoothed (dot d u n)) w)))).
End Waves.

(** What a flux between the states ql and qr with fluxes fl and fr is when there are two waves with the speeds sl and sr:
    the flux of the side from which both waves come; if they go in different directions there is a state q between
    them, and across both waves the jump of the flux is the speed of the wave times the jump of the state. *)
Definition twoWaves (ql qr fl fr : list R) (sl sr : R) (f : list R) : Prop :=
  (0 <= sl -> f = fl) /\ (sl < 0 -> sr <= 0 -> f = fr) /\
  (sl < 0 -> 0 < sr -> length f = length fl /\ exists q, forall i, (i < length f)%nat ->
     nth i f 0 - nth i fl 0 = sl * (nth i q 0 - nth i ql 0) /\
     nth i fr 0 - nth i f 0 = sr * (nth i qr 0 - nth i q 0)).
