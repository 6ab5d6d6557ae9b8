(** Theorems for C78: the fluxes through the facets. *)
From Coq Require Import List Arith Bool Reals Lia Lra.
From Verif Require Import Facets_model Facets_spec Facets_proofs Facets_theorems FacetFlux_model FacetFlux_proofs.
Import ListNotations.

(** C78: the program gives four numbers for each facet, in the order of the facets: the sums, over all processors and the faces
    of the facet on them, of the numbers for the face and its side.  The assertion never fails, also for processors without
    faces of a facet.  C78_faces says which faces and sides these are. *)
Theorem C78_fluxes : forall (flux : face -> side -> nat -> R) N (processors : list (list face)),
  (forall faces f, In faces processors -> In f faces -> within N f) ->
  exists fluxes, computeFluxes flux N processors = Some fluxes /\ length fluxes = length (faceIndexOrdering N processors) /\
    forall k p, nth_error (faceIndexOrdering N processors) k = Some p ->
      nth_error fluxes k = Some (map (fun c => fold_right Rplus 0%R (map (fun faces =>
        fold_right Rplus 0%R (map (fun f => flux (fst f) (snd f) c) (lookup p (facets faces)))) processors)) [0; 1; 2; 3]).
Proof. intros flux N ps W. exact (fluxes_right flux N ps W). Qed.
Print Assumptions C78_fluxes.
Example C78_fluxes_nonvacuous :
  (forall faces f, In faces [left_faces; right_faces] -> In f faces -> within 3 f) /\
  exists fluxes x, computeFluxes (fun f s c => INR (leftZone f + c)) 3 [left_faces; right_faces] = Some fluxes /\ length fluxes = 4 /\
    nth_error fluxes 1 = Some x /\ nth 3 x 0%R = 8%R.
Proof.
  pose proof (proj1 C78_nonvacuous) as W. split; [exact W|]. destruct (C78_fluxes (fun f s c => INR (leftZone f + c)) 3 _ W) as [fl [E [L H]]].
  exists fl. eexists. split; [exact E|]. split; [exact L|]. split; [apply (H 1 (0, Some 2) eq_refl)|]. cbn. lra.
Qed.
