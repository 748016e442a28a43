(** Spectra of Hermitian operators on a finite basis, written without the model. *)
From Coq Require Import List Reals Bool.
From Verif Require Import Base Cplx Stats_Spec BranchFree_Model BranchFree_Spec Vmc_Spec.
Import ListNotations.

(** a complete system of normalised eigenvectors with real eigenvalues: the squared length of every wave function
    is the sum of its squared overlaps with the eigenvectors (Parseval) *)
Definition eigensystem (basis : list config) (O : wavefun -> wavefun) (es : list (R * wavefun)) : Prop :=
  (forall e v, In (e, v) es -> norm2 basis v = 1%R /\ forall s, In s basis -> O v s = (RtoC e * v s)%C)
  /\ (forall f, norm2 basis f = rsum (map (fun ev => Cnorm2 (braket basis (snd ev) f)) es)).

(** e is an eigenvalue: some wave function that does not vanish is an eigenvector *)
Definition eigenvalue (basis : list config) (O : wavefun -> wavefun) (e : R) : Prop :=
  exists v, norm2 basis v <> 0%R /\ forall s, In s basis -> O v s = (RtoC e * v s)%C.

(** probability that a measurement of O in the state phi yields a value selected by [sel] *)
Definition outcome (basis : list config) (es : list (R * wavefun)) (sel : R -> bool) (phi : wavefun) : R :=
  (rsum (map (fun ev => if sel (fst ev) then Cnorm2 (braket basis (snd ev) phi) else 0%R) es) / norm2 basis phi)%R.
