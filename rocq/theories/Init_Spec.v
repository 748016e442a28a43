(** Which network a description describes. *)
From Coq Require Import String List.
From Verif Require Import Base Init_Model.
Import ListNotations.
Local Open Scope string_scope.

(** the functions named by strings *)
Inductive names_fun : string -> act_fun -> Prop :=
| nf_square : names_fun "square" Square | nf_poly5 : names_fun "poly5" Poly5 | nf_poly6 : names_fun "poly6" Poly6
| nf_elu : names_fun "elu" Elu | nf_relu : names_fun "relu" Relu | nf_tanh : names_fun "tanh" Tanh.
Inductive names_value : pval -> pval -> Prop :=
| nv_one s f : names_fun s f -> names_value (PStr s) (PFun f)
| nv_list ss fs : Forall2 names_fun ss fs -> names_value (PList ss) (PTuple fs).

(** keyword arguments of the network: those of the description, the activation functions looked up *)
Definition meant_params (given meant : list (string * pval)) : Prop :=
  Forall2 (fun g m => fst g = fst m /\ (fst g = "actFun" -> names_value (snd g) (snd m))
                      /\ (fst g <> "actFun" -> snd m = snd g)) given meant.

(** the symmetries mentioned in the description, with their factors *)
Definition meant_orbit (d : descr) (dims : list nat) (o : orbit) : Prop :=
  o_dim o = length dims /\ hd_error dims = Some (o_L o)
  /\ (forall s, In s (o_symms o) <-> (In s ["translation"; "rotation"; "reflection"; "spinflip"] /\ In s (map fst (d_entries d))))
  /\ NoDup (o_symms o)
  /\ (forall s, In s (o_symms o) -> forall v,
        (In ((s ++ "_factor")%string, v) (d_entries d) -> In ((s ++ "_factor")%string, Some v) (o_factors o)))
  /\ (forall s, In s (o_symms o) -> ~ In (s ++ "_factor")%string (map fst (d_entries d)) -> In ((s ++ "_factor")%string, None) (o_factors o))
  /\ map fst (o_factors o) = map (fun s => s ++ "_factor")%string (o_symms o).

(** networks that generate samples *)
Definition generates (type : string) : Prop := type = "RNN" \/ type = "RNN2D".
