(** Properties of [init_net]: C63. *)
From Coq Require Import String List Bool Lia.
From Verif Require Import Base Init_Model Init_Spec Init_Proofs.
Import ListNotations.
Local Open Scope string_scope.
Local Open Scope list_scope.

(** C63 (part). The first call with a description of one network on a ring (without rotation) or a square
    lattice builds the described network: the activation functions that are named, the symmetries that are
    mentioned with their factors, separate averaging for generators, batch size and seed.  Missing: repeated
    calls and two networks (refuted below). *)
Theorem C63_first_call_partial :
  forall construct evaluate d n1 meant dims seed b,
  d_net1 d = Some n1 -> d_net2 d = None -> d_batch d = Some b ->
  NoDup (map fst (nd_params n1)) -> NoDup (map fst (d_entries d)) ->
  meant_params (nd_params n1) meant ->
  In (nd_type n1) ["RBM"; "FFN"; "CNN"; "RNN"; "RNN2D"; "CpxRBM"; "CpxCNN"] ->
  (length dims = 1 \/ length dims = 2) -> (length dims = 1 -> ~ In "rotation" (map fst (d_entries d))) ->
  construct (mk_net (nd_type n1) meant) = Ok tt ->
  (forall p, evaluate p dims = Ok tt) ->
  exists p, snd (init_net construct evaluate d dims seed) = Ok p
    /\ p_net p = mk_net (nd_type n1) meant /\ meant_orbit d dims (p_orbit p)
    /\ (p_avg p = Avg_Sep <-> generates (nd_type n1)) /\ p_batch p = b /\ p_seed p = seed.
Proof. exact first_call. Qed.
Print Assumptions C63_first_call_partial.

(** C63 (part). If no activation functions are named, the description is never changed, and every call in any
    sequence of calls gives what a single call gives. *)
Theorem C63_repeated_partial :
  forall construct evaluate d,
  (forall n, d_net1 d = Some n \/ d_net2 d = Some n -> ~ In "actFun" (map fst (nd_params n))) ->
  forall calls, init_calls construct evaluate d calls
                = (d, map (fun c => snd (init_net construct evaluate d (fst c) (snd c))) calls).
Proof.
  intros construct evaluate d H calls. apply calls_same. intros dims seed.
  apply unchanged; intros n Hn; apply H; tauto.
Qed.
Print Assumptions C63_repeated_partial.

Definition any_net (n : net) : result unit := Ok tt.
Definition any_psi (p : psi) (dims : list nat) : result unit := Ok tt.
(** a convolutional network with activation functions, on a square lattice with translations (factor 7) and spin flip *)
Definition cnn_descr : descr :=
  mk_descr (Some (mk_nd "CNN" [("channels", POther 3); ("actFun", PList ["elu"; "poly6"]); ("F", POther 4)])) None
           [("translation", 1); ("translation_factor", 7); ("spinflip", 1)] (Some 100).
Definition rbm_descr : descr := mk_descr (Some (mk_nd "CpxRBM" [("numHidden", POther 8)])) None [("rotation", 1)] (Some 20).

Example C63_case :
  (exists n1 meant, d_net1 cnn_descr = Some n1 /\ d_net2 cnn_descr = None /\ NoDup (map fst (nd_params n1))
     /\ NoDup (map fst (d_entries cnn_descr)) /\ meant_params (nd_params n1) meant
     /\ In (nd_type n1) ["RBM"; "FFN"; "CNN"; "RNN"; "RNN2D"; "CpxRBM"; "CpxCNN"])
  /\ snd (init_net any_net any_psi cnn_descr [4; 4] 5)
     = Ok (mk_psi (mk_net "CNN" [("channels", POther 3); ("actFun", PTuple [Elu; Poly6]); ("F", POther 4)])
                  (mk_orbit 2 4 ["translation"; "spinflip"] [("translation_factor", Some 7); ("spinflip_factor", None)]) Avg_Exp 100 5)
  /\ snd (init_calls any_net any_psi rbm_descr [([4; 4], 1); ([4; 4], 1)])
     = (let r := Ok (mk_psi (mk_net "CpxRBM" [("numHidden", POther 8)]) (mk_orbit 2 4 ["rotation"] [("rotation_factor", None)]) Avg_Exp 20 1) in [r; r]).
Proof.
  split; [|split; reflexivity].
  eexists _, [("channels", POther 3); ("actFun", PTuple [Elu; Poly6]); ("F", POther 4)].
  split; [reflexivity|]. split; [reflexivity|].
  split; [repeat constructor; cbn; intuition discriminate|].
  split; [repeat constructor; cbn; intuition discriminate|].
  split; [|cbn; tauto].
  repeat (apply Forall2_cons; [cbn; split; [reflexivity|split; [intros E; try discriminate|intros E; try reflexivity]]|]); [| |constructor].
  - apply nv_list. repeat constructor.
  - congruence.
Qed.

(** C63 (finding). The call replaces the names of activation functions in the caller's dictionary by function
    objects: whenever a call with a named activation function succeeds, all later calls with the same
    description raise KeyError. *)
Theorem C63_second_call_refuted :
  forall construct evaluate d n1 dims seed dims' seed' p,
  d_net1 d = Some n1 -> In "actFun" (map fst (nd_params n1)) ->
  snd (init_net construct evaluate d dims seed) = Ok p ->
  snd (init_net construct evaluate (fst (init_net construct evaluate d dims seed)) dims' seed') = Err KeyError.
Proof.
  intros construct evaluate d n1 dims seed dims' seed' p H1 Hin Hp.
  destruct (lookup "actFun" (nd_params n1)) as [v|] eqn:E.
  - exact (second_call _ _ _ _ _ _ _ _ _ _ H1 E Hp).
  - apply lookup_None in E. contradiction.
Qed.
Print Assumptions C63_second_call_refuted.

Example C63_second_call_case :
  (exists p, snd (init_net any_net any_psi cnn_descr [4; 4] 5) = Ok p)
  /\ (exists n1, d_net1 cnn_descr = Some n1 /\ In "actFun" (map fst (nd_params n1)))
  /\ snd (init_net any_net any_psi (fst (init_net any_net any_psi cnn_descr [4; 4] 5)) [4; 4] 5) = Err KeyError.
Proof.
  split; [eexists; reflexivity|]. split; [eexists; split; [reflexivity|cbn; tauto]|reflexivity].
Qed.

(** C63 (finding). No description of two networks is accepted, whatever the network classes do. *)
Theorem C63_two_nets_refuted :
  forall construct evaluate d n2 dims seed p, d_net2 d = Some n2 -> snd (init_net construct evaluate d dims seed) <> Ok p.
Proof. exact two_never. Qed.
Print Assumptions C63_two_nets_refuted.
(** two restricted Boltzmann machines for which everything else is in order *)
Example C63_two_nets_case :
  let n := mk_nd "RBM" [("numHidden", POther 8)] in
  snd (init_net any_net any_psi (mk_descr (Some n) (Some n) [] (Some 20)) [4] 1) = Err TypeError.
Proof. reflexivity. Qed.

(** C63 (finding). On a ring the symmetry "rotation", which get_orbit_1D documents, raises TypeError because
    the factor is always passed on; lattices of three or more dimensions have no orbit at all. *)
Theorem C63_ring_rotation_refuted :
  forall construct evaluate d dims seed p, length dims = 1 -> In "rotation" (map fst (d_entries d)) ->
  snd (init_net construct evaluate d dims seed) <> Ok p.
Proof. exact ring_rotation. Qed.
Print Assumptions C63_ring_rotation_refuted.
Theorem C63_three_dimensions_refuted :
  forall construct evaluate d dims seed p, 3 <= length dims -> snd (init_net construct evaluate d dims seed) <> Ok p.
Proof. exact three_dims. Qed.
Print Assumptions C63_three_dimensions_refuted.
Example C63_orbit_case :
  snd (init_net any_net any_psi rbm_descr [6] 1) = Err TypeError
  /\ snd (init_net any_net any_psi rbm_descr [3; 3; 3] 1) = Err UnboundLocalError.
Proof. split; reflexivity. Qed.
