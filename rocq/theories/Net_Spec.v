(** Independent specification for feed-forward networks, layer arguments and recurrent stacks. *)
From Coq Require Import String Ascii DecimalString List Reals Arith Bool.
From Verif Require Import Base Cplx BranchFree_Model Net_Model.
Import ListNotations.
Local Open Scope R_scope.

(** ** feed-forward networks *)
(** unit [i] of layer l+1 is f_l(sum_j W_l(i,j) x_l(j) + b_l(i)), where x_l are the units of layer l *)
Fixpoint unit_value (width : nat -> nat) (W : nat -> nat -> nat -> R) (b : nat -> nat -> R) (f : nat -> R -> R) (x : nat -> R) (l i : nat) : R :=
  match l with
  | O => x i
  | S l' => f l' (rsumn (width l') (fun j => W l' i j * unit_value width W b f x l' j) + b l' i)
  end.
(** the classical spin of site [j] *)
Definition spin (s : config) (j : nat) : R := 2 * INR (nth j s 0%nat) - 1.
(** the function given for layer [l]; if there are too few, the last one *)
Definition layer_function (fs : list (R -> R)) (l : nat) : R -> R := nth (Nat.min l (List.length fs - 1)) fs (fun x => x).
Definition no_params : dense_params := mk_dp [] [].
(** weight and bias of layer [l] *)
Definition weight_at (ps : list dense_params) (l i j : nat) : R := nth j (nth i (dp_kernel (nth l ps no_params)) []) 0.
Definition bias_at (bias : bool) (ps : list dense_params) (l i : nat) : R := if bias then nth i (dp_bias (nth l ps no_params)) 0 else 0.
(** layer [l] has [width l] inputs and [width (l+1)] outputs *)
Definition well_shaped (bias : bool) (width : nat -> nat) (ps : list dense_params) : Prop :=
  forall l, (l < List.length ps)%nat ->
    List.length (dp_kernel (nth l ps no_params)) = width (S l) /\
    (forall r, In r (dp_kernel (nth l ps no_params)) -> List.length r = width l) /\
    (bias = true -> List.length (dp_bias (nth l ps no_params)) = width (S l)).
Definition odd_fun (f : R -> R) : Prop := forall x, f (- x) = - f x.
Definition even_fun (f : R -> R) : Prop := forall x, f (- x) = f x.
(** all spins turned over *)
Definition turned (s : config) : config := map (fun x => 1 - x)%nat s.

(** ** flax *)
(** a release and its version string *)
Record release := mk_rel { major : nat; minor : nat; patch : nat }.
Definition decimal (n : nat) : string := NilEmpty.string_of_uint (Nat.to_uint n).
Definition version_string (v : release) : string :=
  (decimal (major v) ++ "." ++ decimal (minor v) ++ "." ++ decimal (patch v))%string.
(** releases from 0.4.0 on hand the argument param_dtype to initialisation functions *)
Definition new_interface (v : release) : Prop := (major v > 0 \/ minor v >= 4)%nat.
(** the requirement in setup.py, flax>=0.7.0 *)
Definition allowed (v : release) : Prop := (major v > 0 \/ minor v >= 7)%nat.
Definition look (name : string) (l : list (string * init_fun)) : option init_fun :=
  match find (fun kv => String.eqb name (fst kv)) l with Some kv => Some (snd kv) | None => None end.
(** the data type of a parameter made by a layer with the function [name]; None is the default of the function.
    The new interface calls the function with a positional data type, which is an error if this argument is
    bound already; the old one does not know param_dtype and calls the function without data type. *)
Definition made_with (new : bool) (a : layer_args) (name : string) : result (option dtype) :=
  match look name (la_inits a) with
  | None => Err KeyError
  | Some f =>
      if new then match if_bound f with
                  | Some _ => Err TypeError
                  | None => Ok (match la_param_dtype a with Some d => d | None => Some TSingle end)
                  end
      else match la_param_dtype a with
           | Some _ => Err TypeError
           | None => Ok (match if_bound f with Some d => d | None => None end)
           end
  end.

(** ** recurrent stacks *)
(** cells one after another: each gets its own carry and the output of the cell before *)
Inductive relay {K} : list (K -> list R -> result (carry * list R)) -> list K -> list R -> list carry -> list R -> Prop :=
| relay_nil x : relay [] [] x [] x
| relay_cons k ks c cs x c' x' cs' y : k c x = Ok (c', x') -> relay ks cs x' cs' y -> relay (k :: ks) (c :: cs) x (c' :: cs') y.
(** the arrays have the same number of rows and of columns *)
Definition same_shape (c d : carry) : Prop := List.length c = List.length d /\ List.length (hd [] c) = List.length (hd [] d).
(** [r] vectors with [h] entries *)
Definition has_shape (r h : nat) (c : carry) : Prop := List.length c = r /\ forall v, In v c -> List.length v = h.
(** a square kernel *)
Definition kernel_shape (m n : nat) (p : dense_params) : Prop :=
  List.length (dp_kernel p) = n /\ forall r, In r (dp_kernel p) -> List.length r = m.

(** hidden states of a stack of vanilla cells at one site: the state of layer j+1 is f(field) plus the state
    of layer j, where the field is linear in the state of the same layer at the neighbouring sites;
    [x0] is the transformed input *)
Fixpoint stack_value (f : R -> R) (field : nat -> nat -> R) (x0 : nat -> R) (j i : nat) : R :=
  match j with
  | O => x0 i
  | S j' => f (field j' i) + stack_value f field x0 j' i
  end.
(** row [i] of a kernel times a vector *)
Definition row_dot (p : dense_params) (i : nat) (v : list R) : R := rsumn (List.length v) (fun k => nth k (nth i (dp_kernel p) []) 0 * nth k v 0).
(** the state of layer [j] *)
Definition state_of (cs : list carry) (j : nat) : list R := hd [] (nth j cs []).

(** ** initial scale *)
(** the entry made with initScale = x is sqrt(x) times the entry made with initScale = 1 *)
Definition scales (k : kernel) : Prop :=
  forall x u1 u2, 0 <= x -> exists e, initial_entry (k_src k) 1 (k_in k) (k_out k) u1 u2 = Ok e
    /\ initial_entry (k_src k) x (k_in k) (k_out k) u1 u2 = Ok (Cscal (sqrt x) e).
(** the entry does not depend on initScale *)
Definition not_scaled (k : kernel) : Prop :=
  forall x y u1 u2, initial_entry (k_src k) x (k_in k) (k_out k) u1 u2 = initial_entry (k_src k) y (k_in k) (k_out k) u1 u2.
