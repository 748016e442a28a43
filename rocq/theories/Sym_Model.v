(** Model of /repo/jVMC/util/symmetries.py, /repo/jVMC/nets/sym_wrapper.py and the symmetry
    part of direct sampling in /repo/jVMC/sampler.py. *)
From Coq Require Import ZArith List Reals Bool Arith.
From Verif Require Import Base Cplx Stats_Model BranchFree_Model Dist Sampler_Model.
Import ListNotations.

(** ** integer matrices *)
Definition mat := list (list Z).
(** the sums in products of matrices, symmetries.py 71, 162 and sampler.py 230 *)
Definition zsum : list Z -> Z := big 0%Z Z.add.
(** [A.dot(v)] (sampler.py 230, sym_wrapper.py 54) *)
Definition mat_vec (A : mat) (v : list Z) : list Z := map (fun r => zsum (map2 Z.mul r v)) A.
(** [A @ B] (symmetries.py 71, 162) *)
Definition mat_mul (A B : mat) : mat :=
  map (fun r => map (fun j => zsum (map2 Z.mul r (map (fun s => nth j s 0%Z) B))) (seq 0 (length (hd [] B)))) A.
(** symmetries.py 62-63, 156-157: [orbit = zeros((n, n)); orbit[arange(n), map] = 1] *)
Definition map_matrix (n : nat) (m : list nat) : mat :=
  map (fun k => map (fun j => if j =? k then 1%Z else 0%Z) (seq 0 n)) m.
(** [- orbits] (symmetries.py 138, 214) *)
Definition mat_opp (A : mat) : mat := map (map Z.opp) A.

(** [np.roll] along one axis *)
Definition roll {A} (k : nat) (l : list A) (d : A) : list A :=
  let n := length l in map (fun i => nth ((i + (n - k mod n)) mod n) l d) (seq 0 n).

(** [f ** k] *)
Fixpoint Cpow (f : C) (k : nat) : C := match k with O => C1 | S j => Cmul f (Cpow f j) end.

(** ** np.unique *)
Fixpoint lex (a b : list Z) : comparison :=
  match a, b with
  | [], [] => Eq | [], _ => Lt | _, [] => Gt
  | x :: a', y :: b' => match Z.compare x y with Eq => lex a' b' | c => c end
  end.
(** np.unique with return_index, symmetries.py 141, 217: sorted, the first of equal rows is kept *)
Fixpoint insert_unique (x : mat * C) (l : list (mat * C)) : list (mat * C) :=
  match l with
  | [] => [x]
  | y :: r => match lex (concat (fst x)) (concat (fst y)) with
              | Lt => x :: l
              | Eq => l
              | Gt => y :: insert_unique x r
              end
  end.
(** symmetries.py 141-143, 217-219: np.unique of the flattened matrices returns them sorted
    without repetitions, together with the index of the first occurrence; the factors are
    those of the first occurrences.  Matrices and factors are kept together here. *)
Definition unique (l : list (mat * C)) : list (mat * C) := fold_left (fun acc x => insert_unique x acc) l [].

(** symmetries.py 136-139, 212-215 *)
Definition add_spinflip (use : bool) (factor : C) (l : list (mat * C)) : list (mat * C) :=
  if use then l ++ map (fun of => (mat_opp (fst of), Cmul factor (snd of))) l else l.

(** ** one dimension *)
(** symmetries.py 47-48 *)
Definition get_1D_index (L : nat) : list nat := seq 0 L.
(** symmetries.py 168-188: maps with their factors *)
Definition reflection_1D (L : nat) (use : bool) (factor : C) : list (list nat * C) :=
  let idx := get_1D_index L in (idx, C1) :: (if use then [(rev idx, factor)] else []).
(** symmetries.py 175, 181-186 *)
Definition translation_1D (L : nat) (use : bool) (factor : C) : list (list nat * C) :=
  let idx := get_1D_index L in
  (idx, C1) :: (if use then map (fun x => (roll x idx 0, Cpow factor x)) (filter (fun x => negb (x =? 0)) (seq 0 L)) else []).
(** symmetries.py 146-165; a LatticeSymmetry (22-40) is the list of its matrices and factors *)
Definition get_orbits_from_maps_1D (L : nat) (translation reflection : list (list nat * C)) : list (mat * C) :=
  flat_map (fun t => map (fun r => (mat_mul (map_matrix L (fst t)) (map_matrix L (fst r)), Cmul (snd t) (snd r))) reflection) translation.
(** symmetries.py 191-219; flags and factors of translation, reflection, spinflip *)
Definition get_orbit_1D (L : nat) (useT useR useS : bool) (fT fR fS : C) : list (mat * C) :=
  unique (add_spinflip useS fS (get_orbits_from_maps_1D L (translation_1D L useT fT) (reflection_1D L useR fR))).

(** ** two dimensions *)
(** symmetries.py 43-44 *)
Definition get_2D_index (L : nat) : list (list nat) := map (fun y => map (fun x => y * L + x) (seq 0 L)) (seq 0 L).
(** [.T] of a square array *)
Definition transpose (a : list (list nat)) : list (list nat) := map (fun j => map (fun r => nth j r 0) a) (seq 0 (length a)).
(** [a[::-1, :]] and [a[:, ::-1]] *)
Definition flip_rows (a : list (list nat)) : list (list nat) := rev a.
(** [a[:, ::-1]], symmetries.py 90, 92, 98, 100 *)
Definition flip_cols (a : list (list nat)) : list (list nat) := map (@rev nat) a.
(** symmetries.py 83-111: maps with their factors *)
Definition rotation_2D (L : nat) (use : bool) (f : C) : list (list (list nat) * C) :=
  let idx := get_2D_index L in
  (idx, C1) :: (if use then [(transpose (flip_rows idx), f); (flip_rows (flip_cols idx), Cpow f 2); (transpose (flip_cols idx), Cpow f 3)] else []).
(** symmetries.py 84, 95-101 *)
Definition reflection_2D (L : nat) (use : bool) (f : C) : list (list (list nat) * C) :=
  let idx := get_2D_index L in
  (idx, C1) :: (if use then [(flip_rows idx, f); (flip_cols idx, f); (flip_rows (flip_cols idx), Cpow f 2)] else []).
(** symmetries.py 85, 103-109 *)
Definition translation_2D (L : nat) (use : bool) (f : C) : list (list (list nat) * C) :=
  let idx := get_2D_index L in
  (idx, C1) :: (if use then
     map (fun xy => (roll (snd xy) (map (fun r => roll (fst xy) r 0) idx) [], Cpow f (fst xy + snd xy)))
         (filter (fun xy => negb ((fst xy =? 0) && (snd xy =? 0))) (list_prod (seq 0 L) (seq 0 L)))
   else []).
(** symmetries.py 51-74; the loops are over translation, then the fourth argument (reflection),
    then the third (rotation), and the matrices are multiplied in this order *)
Definition get_orbits_from_maps_2D (L : nat) (translation rotation reflection : list (list (list nat) * C)) : list (mat * C) :=
  let M := fun m : list (list nat) => map_matrix (L * L) (concat m) in
  flat_map (fun t => flat_map (fun ref => map (fun rot =>
     (mat_mul (mat_mul (M (fst t)) (M (fst ref))) (M (fst rot)), Cmul (Cmul (snd t) (snd ref)) (snd rot))) rotation) reflection) translation.
(** symmetries.py 114-143; line 134 passes reflection as third and rotation as fourth argument *)
Definition get_orbit_2D_square (L : nat) (useT useR useRot useS : bool) (fT fR fRot fS : C) : list (mat * C) :=
  unique (add_spinflip useS fS
    (get_orbits_from_maps_2D L (translation_2D L useT fT) (reflection_2D L useR fR) (rotation_2D L useRot fRot))).

(** ** SymNet *)
(** sym_wrapper.py 52-55 for one orbit element; sampler.py 229-230 *)
Definition sym_act (O : mat) (s : config) : config :=
  map (fun z => Z.to_nat ((z + 1) / 2)) (mat_vec O (map (fun x => (2 * Z.of_nat x - 1)%Z) s)).

(** sym_wrapper.py 7-9: log sum factor exp(coeff).  Subtracting the maximum inside logsumexp
    does not change the value.  The logarithm of a vanishing sum (-inf) is not modelled. *)
Definition avgFun_Coefficients_Exp (coeffs factors : list C) : C := Clog (csum (map2 (fun c f => Cmul f (Cexp c)) coeffs factors)).
(** sym_wrapper.py 12-13 *)
Definition avgFun_Coefficients_Log (coeffs factors : list C) : C := Cdiv (csum coeffs) (RtoC (INR (length coeffs))).
(** [jnp.angle]; 0 at 0 *)
Definition angle (z : C) : R := if Req_EM_T (Cnorm2 z) 0 then 0%R else Im (Clog z).
(** sym_wrapper.py 16-19 *)
Definition avgFun_Coefficients_Sep (coeffs factors : list C) : C :=
  let n := INR (length coeffs) in
  ((1 / 2 * ln (rsum (map (fun c => exp (2 * Re c)) coeffs) / n))%R,
   angle (Cdiv (csum (map (fun c => Cexp (0, Im c)%R) coeffs)) (RtoC n))).
(** sym_wrapper.py 50-61; [net] is the plain network *)
Definition sym_net (avgFun : list C -> list C -> C) (orbit : list (mat * C)) (net : config -> C) (s : config) : C :=
  avgFun (map (fun of => net (sym_act (fst of) s)) orbit) (map snd orbit).

(** ** randomised samples *)
(** sampler.py 225-230 for one sample, 242-247; [plain] is the distribution of net.sample *)
Definition randomized_sample (orbit : list (mat * C)) (plain : dist config) : dist config :=
  s <~ plain;; idx <~ randint 0 (length orbit);; ret (sym_act (fst (nth idx orbit ([], C0))) s).
