(** Common vocabulary: results with exceptions, finite sums.
    Nothing in this file models code of the repository. *)
From Coq Require Import List Arith Lia Permutation.
Import ListNotations.

(** Python exceptions as values.  [Blocked] stands for a call that waits
    forever in a collective MPI operation, [Diverges] for exhausted fuel. *)
Inductive exn :=
| TypeError | ValueError | IndexError | KeyError | RuntimeError
| NameError | ShapeError | AttributeError | UnboundLocalError
| UserError (n : nat) | Blocked | Diverges.

Inductive result (A : Type) :=
| Ok (a : A)
| Err (e : exn).
Arguments Ok {A} a.
Arguments Err {A} e.

Definition bind {A B} (x : result A) (f : A -> result B) : result B :=
  match x with Ok a => f a | Err e => Err e end.
Notation "'do' x <- a ; b" := (bind a (fun x => b))
  (at level 200, x pattern, a at level 100, b at level 200).

Definition is_ok {A} (x : result A) : bool :=
  match x with Ok _ => true | Err _ => false end.

(** Sums over lists in a commutative monoid. *)
Section Big.
  Context {T : Type} (z : T) (add : T -> T -> T).

  Definition big (l : list T) : T := fold_right add z l.

  Hypothesis addC : forall a b, add a b = add b a.
  Hypothesis addA : forall a b c, add a (add b c) = add (add a b) c.
  Hypothesis add0 : forall a, add z a = a.

  Lemma big_app l1 l2 : big (l1 ++ l2) = add (big l1) (big l2).
  Proof.
    induction l1 as [|x l1 IH]; cbn; [now rewrite add0|].
    unfold big in *. rewrite IH. apply addA.
  Qed.

  Lemma big_perm l1 l2 : Permutation l1 l2 -> big l1 = big l2.
  Proof.
    induction 1 as [|x a b _ IH|x y a|a b c _ IH1 _ IH2]; cbn; unfold big in *.
    - reflexivity.
    - now rewrite IH.
    - rewrite !addA. now rewrite (addC y x).
    - now rewrite IH1.
  Qed.

  Lemma big_concat ll : big (concat ll) = big (map big ll).
  Proof.
    induction ll as [|l ll IH]; cbn; [reflexivity|].
    rewrite big_app, IH. reflexivity.
  Qed.

  Lemma big_map_add {A} (f g : A -> T) l :
    big (map (fun x => add (f x) (g x)) l) = add (big (map f l)) (big (map g l)).
  Proof.
    induction l as [|x l IH]; cbn; [now rewrite add0|].
    unfold big in *. rewrite IH.
    rewrite !addA. f_equal. rewrite <- !addA. f_equal. apply addC.
  Qed.

  Lemma big_zero {A} (l : list A) : big (map (fun _ => z) l) = z.
  Proof. induction l as [|x l IH]; cbn; [reflexivity|]. unfold big in *. now rewrite IH, add0. Qed.

  Lemma big_ext {A} (f g : A -> T) l :
    (forall x, In x l -> f x = g x) -> big (map f l) = big (map g l).
  Proof.
    intros H. f_equal. apply map_ext_in. exact H.
  Qed.

  Lemma big_swap {A B} (f : A -> B -> T) la lb :
    big (map (fun a => big (map (fun b => f a b) lb)) la)
    = big (map (fun b => big (map (fun a => f a b) la)) lb).
  Proof.
    induction la as [|a la IH]; cbn.
    - symmetry. apply big_zero.
    - fold (@big). unfold big in IH |- *. rewrite IH.
      symmetry. apply (big_map_add (fun b => f a b)
                         (fun b => fold_right add z (map (fun a0 => f a0 b) la))).
  Qed.
End Big.

Definition nsum := big 0 Nat.add.

Lemma nsum_app a b : nsum (a ++ b) = nsum a + nsum b.
Proof. apply big_app; intros; lia. Qed.
Lemma nsum_cons x l : nsum (x :: l) = x + nsum l.
Proof. reflexivity. Qed.

(** small list facts *)
Lemma map_seq_shift {A} (f : nat -> A) a n :
  map f (seq a n) = map (fun i => f (a + i)) (seq 0 n).
Proof.
  revert a f. induction n as [|n IH]; intros a f; cbn; [reflexivity|].
  rewrite Nat.add_0_r. f_equal.
  rewrite (IH (S a)), (IH 1). apply map_ext. intros i. f_equal. lia.
Qed.

Lemma seq_app_split a n m : seq a (n + m) = seq a n ++ seq (a + n) m.
Proof. apply seq_app. Qed.

Lemma nth_error_ext {A} (l1 l2 : list A) :
  (forall i, nth_error l1 i = nth_error l2 i) -> l1 = l2.
Proof.
  revert l2. induction l1 as [|x l1 IH]; intros [|y l2] H.
  - reflexivity.
  - specialize (H 0). discriminate.
  - specialize (H 0). discriminate.
  - f_equal.
    + specialize (H 0). now inversion H.
    + apply IH. intros i. apply (H (S i)).
Qed.

Lemma nth_ext' {A} (d : A) (l1 l2 : list A) :
  length l1 = length l2 ->
  (forall i, i < length l1 -> nth i l1 d = nth i l2 d) -> l1 = l2.
Proof. intros HL H. apply (nth_ext l1 l2 d d); auto. Qed.

Lemma list_eq_seq_nth {A} (d : A) (l : list A) :
  l = map (fun i => nth i l d) (seq 0 (length l)).
Proof.
  induction l as [|x l IH]; [reflexivity|].
  cbn [length seq map nth]. f_equal.
  rewrite map_seq_shift. exact IH.
Qed.
