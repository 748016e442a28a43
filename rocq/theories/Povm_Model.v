(** Model of the matrices in /repo/jVMC/operator/povm.py.  Matrices are functions of two indices;
    only indices below the dimension are used.  Floating point numbers are real numbers. *)
From Coq Require Import String List Reals Bool Arith.
From Verif Require Import Base Cplx.
Import ListNotations.
Local Open Scope R_scope.

(** complex and real arrays with two axes *)
Definition cmat := nat -> nat -> C.
(** real arrays with two axes, povm.py 84-166 *)
Definition rmat := nat -> nat -> R.
(** a literal 2x2 array, povm.py 84-86 *)
Definition mat2 (a b c d : C) : cmat := fun i j =>
  match i, j with 0%nat, 0%nat => a | 0%nat, 1%nat => b | 1%nat, 0%nat => c | 1%nat, 1%nat => d | _, _ => C0 end.
(** a literal array of rows *)
Definition rows (l : list (list R)) : rmat := fun i j => nth j (nth i l []) 0.
(** [jnp.eye], povm.py 125 *)
Definition eye : cmat := fun i j => if (i =? j)%nat then C1 else C0.
(** [jnp.dot] of real matrices with inner dimension n, povm.py 122, 124 *)
Definition rdot (n : nat) (A B : rmat) : rmat := fun i j => rsumn n (fun k => A i k * B k j).
(** [jnp.transpose], povm.py 122 *)
Definition transpose (A : rmat) : rmat := fun i j => A j i.
(** [jnp.conj(A).T], povm.py 156-158 *)
Definition adjoint (A : cmat) : cmat := fun i j => Cconj (A j i).

(** [get_paulis], povm.py 80-86 *)
Definition get_paulis (k : nat) : cmat :=
  match k with
  | 0%nat => mat2 C0 C1 C1 C0
  | 1%nat => mat2 C0 (- Ci)%C Ci C0
  | _ => mat2 C1 C0 C0 (- C1)%C
  end.

(** the directions before the rotation, povm.py 103-106 *)
Definition sic_directions : rmat :=
  rows [[0; 0; 1]; [2 * sqrt 2 / 3; 0; -1 / 3]; [- sqrt 2 / 3; sqrt (2 / 3); -1 / 3]; [- sqrt 2 / 3; - sqrt (2 / 3); -1 / 3]].
(** povm.py 111-122 *)
Definition rotator (theta phi : R) : rmat :=
  let rotator_theta := rows [[cos theta; 0; sin theta]; [0; 1; 0]; [- sin theta; 0; cos theta]] in
  let rotator_phi := rows [[cos phi; - sin phi; 0]; [sin phi; cos phi; 0]; [0; 0; 1]] in
  rdot 3 (transpose rotator_theta) (transpose rotator_phi).
(** povm.py 124-125: the operators for the directions s *)
Definition povm_of_directions (s : rmat) : nat -> cmat := fun a i j =>
  Cscal (/ 4) (eye i j + csumn 3 (fun k => Cscal (s a k) (get_paulis k i j)))%C.
(** [get_M], povm.py 89-126 *)
Definition get_M (theta phi : R) (name : string) : result (nat -> cmat) :=
  if String.eqb name "SIC"
  then Ok (povm_of_directions (rdot 3 sic_directions (rotator theta phi)))
  else Err ValueError.

(** [self.T], povm.py 253: matrices of dimension d *)
Definition overlap (d : nat) (M : nat -> cmat) : cmat := fun a b =>
  csumn d (fun i => csumn d (fun j => (M a i j * M b j i)%C)).

(** conversion modes of [matrix_to_povm] (the strings of povm.py 151-166) *)
Inductive mode := Unitary | Dissipative | Observable | Imaginary.
(** the choice in povm.py 151-166 *)
Definition parse_mode (m : string) : result mode :=
  if (String.eqb m "unitary" || String.eqb m "uni")%bool then Ok Unitary
  else if (String.eqb m "dissipative" || String.eqb m "dis")%bool then Ok Dissipative
  else if (String.eqb m "observable" || String.eqb m "obs")%bool then Ok Observable
  else if (String.eqb m "imaginary" || String.eqb m "imag")%bool then Ok Imaginary
  else Err ValueError.

Section ToPovm.
  (** d: dimension of the matrices, n: number of POVM operators *)
  Variables (d n : nat) (A : cmat) (M : nat -> cmat) (T_inv : cmat).
  (** einsum 'ij, bc, cjk, aki -> ab', povm.py 152 *)
  Definition ein_cjk_aki (a b : nat) : C :=
    csumn d (fun i => csumn d (fun j => csumn d (fun k => csumn n (fun c =>
      (A i j * T_inv b c * M c j k * M a k i)%C)))).
  (** einsum 'ij, ajk, bc, cki -> ab', povm.py 153 *)
  Definition ein_ajk_cki (a b : nat) : C :=
    csumn d (fun i => csumn d (fun j => csumn d (fun k => csumn n (fun c =>
      (A i j * M a j k * T_inv b c * M c k i)%C)))).
  (** povm.py 151-153 *)
  Definition povm_unitary (a b : nat) : R :=
    Re (- Ci * ein_cjk_aki a b + Ci * ein_ajk_cki a b)%C.
  (** povm.py 154-158 *)
  Definition povm_dissipative (a b : nat) : R :=
    Re (csumn d (fun i => csumn d (fun j => csumn d (fun k => csumn d (fun l => csumn n (fun c =>
          (A i j * T_inv b c * M c j k * adjoint A k l * M a l i)%C)))))
        - RtoC (1/2) * csumn d (fun i => csumn d (fun j => csumn d (fun k => csumn d (fun l => csumn n (fun c =>
          (adjoint A i j * A j k * T_inv b c * M c k l * M a l i)%C)))))
        - RtoC (1/2) * csumn d (fun i => csumn d (fun j => csumn d (fun k => csumn d (fun l => csumn n (fun c =>
          (adjoint A i j * A j k * M a k l * T_inv b c * M c l i)%C))))))%C.
  (** povm.py 160-161: einsum 'ab, bij, ji -> a' *)
  Definition povm_observable (a : nat) : R :=
    Re (csumn n (fun b => csumn d (fun i => csumn d (fun j => (T_inv a b * M b i j * A j i)%C)))).
  (** povm.py 162-164 *)
  Definition povm_imaginary (a b : nat) : R :=
    Re (- ein_cjk_aki a b - ein_ajk_cki a b)%C.
End ToPovm.
(** the returned array has one axis (observables) or two *)
Inductive povm_array := Vec (o : nat -> R) | Mat (w : rmat).
(** [matrix_to_povm], povm.py 129-168; the conversion to [dtype] is not modelled *)
Definition matrix_to_povm (d n : nat) (A : cmat) (M : nat -> cmat) (T_inv : cmat) (m : string) : result povm_array :=
  do x <- parse_mode m;
  Ok (match x with
      | Unitary => Mat (povm_unitary d n A M T_inv)
      | Dissipative => Mat (povm_dissipative d n A M T_inv)
      | Observable => Vec (povm_observable d n A M T_inv)
      | Imaginary => Mat (povm_imaginary d n A M T_inv)
      end).

(** [get_dissipators], povm.py 171-189: the matrices before the conversion *)
Definition dissipators_DM : list (string * cmat) :=
  [("decayup", fun i j => Cscal (/ 2) (get_paulis 0 i j + Ci * get_paulis 1 i j)%C);
   ("decaydown", fun i j => Cscal (/ 2) (get_paulis 0 i j - Ci * get_paulis 1 i j)%C);
   ("dephasing", get_paulis 2)]%string.
(** [jnp.kron] with a second factor of dimension q, povm.py 204-207 *)
Definition kron (q : nat) (A B : cmat) : cmat := fun i j => (A (Nat.div i q) (Nat.div j q) * B (Nat.modulo i q) (Nat.modulo j q))%C.
(** povm.py 206: the products of the four operators, reshaped to (16, 4, 4) *)
Definition M_2Body (M : nat -> cmat) : nat -> cmat := fun a => kron 2 (M (Nat.div a 4)) (M (Nat.modulo a 4)).
(** povm.py 207 *)
Definition T_inv_2Body (T_inv : cmat) : cmat := kron 4 T_inv T_inv.
(** povm.py 204 *)
Definition unitaries_DM : list (string * cmat) :=
  [("X", get_paulis 0); ("Y", get_paulis 1); ("Z", get_paulis 2);
   ("XX", kron 2 (get_paulis 0) (get_paulis 0)); ("YY", kron 2 (get_paulis 1) (get_paulis 1)); ("ZZ", kron 2 (get_paulis 2) (get_paulis 2))]%string.
(** [get_dissipators], povm.py 171-189 *)
Definition get_dissipators (M : nat -> cmat) (T_inv : cmat) : list (string * rmat) :=
  map (fun kv => (fst kv, povm_dissipative 2 4 (snd kv) M T_inv)) dissipators_DM.
(** [get_unitaries], povm.py 192-214 *)
Definition get_unitaries (M : nat -> cmat) (T_inv : cmat) : list (string * rmat) :=
  map (fun kv => (fst kv, if (String.length (fst kv) =? 1)%nat
                          then povm_unitary 2 4 (snd kv) M T_inv
                          else povm_unitary 4 16 (snd kv) (M_2Body M) (T_inv_2Body T_inv))) unitaries_DM.
(** [get_observables], povm.py 217-232 *)
Definition get_observables (M : nat -> cmat) (T_inv : cmat) : list (string * (nat -> R)) :=
  map (fun kv => (fst kv, povm_observable 2 4 (snd kv) M T_inv))
      [("X", get_paulis 0); ("Y", get_paulis 1); ("Z", get_paulis 2)]%string.

(** [get_1_particle_distributions], povm.py 52-77; arrays of length 2 and 4 *)
Definition state_vector (state : string) : result (nat -> C) :=
  let vec (a b : C) : nat -> C := fun i => match i with 0%nat => a | 1%nat => b | _ => C0 end in
  let half (v : nat -> C) : nat -> C := fun i => Cscal (/ sqrt 2) (v i) in
  if String.eqb state "z_up" then Ok (vec C1 C0)
  else if String.eqb state "z_down" then Ok (vec C0 C1)
  else if String.eqb state "x_up" then Ok (half (vec C1 C1))
  else if String.eqb state "x_down" then Ok (half (vec C1 (- C1)%C))
  else if String.eqb state "y_up" then Ok (half (vec C1 Ci))
  else if String.eqb state "y_down" then Ok (half (vec C1 (- Ci)%C))
  else Err ValueError.
(** povm.py 75-77 *)
Definition one_particle (state : string) (M : nat -> cmat) : result (list R) :=
  do s <- state_vector state;
  Ok (map (fun a => Re (csumn 2 (fun i => (Cconj (s i) * csumn 2 (fun j => (M a i j * s j)%C))%C))) (seq 0 4)).
