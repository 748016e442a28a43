(** Proofs for feed-forward networks, layer arguments and recurrent stacks. *)
From Coq Require Import String Ascii DecimalString Decimal DecimalFacts DecimalNat List Reals Lra Lia Arith Bool.
From Verif Require Import Base Cplx BranchFree_Model Stats_Model Net_Model Net_Spec.
Import ListNotations.
Local Open Scope R_scope.

(** ** dense layers *)
Lemma map2_length {A B D} (f : A -> B -> D) x y : List.length (map2 f x y) = Nat.min (List.length x) (List.length y).
Proof. unfold map2. now rewrite map_length, combine_length. Qed.
Lemma map2_nth {A B D} (f : A -> B -> D) x y i da db dd : (i < List.length x)%nat -> (i < List.length y)%nat ->
  nth i (map2 f x y) dd = f (nth i x da) (nth i y db).
Proof.
  revert y i. induction x as [|a x IH]; intros [|b y] i Hx Hy; cbn in Hx, Hy; try lia.
  destruct i as [|i]; [reflexivity|]. unfold map2 in *. cbn [combine map nth]. apply IH; lia.
Qed.
Lemma map2_dot_gen (w s : list R) k : List.length w = List.length s ->
  rsum (map2 Rmult w s) = rsum (map (fun j => nth (j - k) w 0 * nth (j - k) s 0) (seq k (List.length s))).
Proof.
  revert s k. induction w as [|a w IH]; intros [|b s] k H; cbn in H; try discriminate; [reflexivity|].
  unfold map2 in *. cbn [combine map List.length seq]. rewrite !rsum_cons. replace (k - k)%nat with 0%nat by lia. cbn [nth].
  f_equal. rewrite (IH s (S k)) by lia. apply rsum_ext. intros j Hj. apply in_seq in Hj.
  replace (j - k)%nat with (S (j - S k)) by lia. reflexivity.
Qed.
Lemma map2_dot (w s : list R) : List.length w = List.length s ->
  rsum (map2 Rmult w s) = rsumn (List.length s) (fun j => nth j w 0 * nth j s 0).
Proof. intros H. rewrite (map2_dot_gen w s 0 H). unfold rsumn. apply rsum_ext. intros j _. now rewrite Nat.sub_0_r. Qed.

Definition bias_ok (bias : bool) (p : dense_params) : Prop := bias = true -> List.length (dp_bias p) = List.length (dp_kernel p).
Lemma dense_length bias p s : bias_ok bias p -> List.length (dense bias p s) = List.length (dp_kernel p).
Proof. intros H. unfold dense. rewrite map2_length, map_length. destruct bias; [rewrite (H eq_refl)|rewrite repeat_length]; lia. Qed.
Lemma dense_nth bias p s i : bias_ok bias p -> (i < List.length (dp_kernel p))%nat -> (forall r, In r (dp_kernel p) -> List.length r = List.length s) ->
  nth i (dense bias p s) 0 = rsumn (List.length s) (fun j => nth j (nth i (dp_kernel p) []) 0 * nth j s 0) + (if bias then nth i (dp_bias p) 0 else 0).
Proof.
  intros H Hi HW. unfold dense. rewrite (map2_nth _ _ _ _ 0 0).
  - rewrite (nth_indep _ 0 (rsum (map2 Rmult [] s))) by now rewrite map_length.
    rewrite (map_nth (fun w => rsum (map2 Rmult w s))). rewrite map2_dot by (apply HW; now apply nth_In).
    f_equal. destruct bias; [reflexivity|]. apply nth_repeat.
  - now rewrite map_length.
  - destruct bias; [now rewrite (H eq_refl)|now rewrite repeat_length].
Qed.
Lemma nth_map0 (f : R -> R) l i : (i < List.length l)%nat -> nth i (map f l) 0 = f (nth i l 0).
Proof. intros H. rewrite (nth_indep _ 0 (f 0)) by now rewrite map_length. apply map_nth. Qed.

(** ** feed-forward networks *)
Lemma rsumn_ext' n f g : (forall j, (j < n)%nat -> f j = g j) -> rsumn n f = rsumn n g.
Proof. intros H. apply rsum_ext. intros j Hj. apply in_seq in Hj. apply H. lia. Qed.
Lemma unit_ext width W b f x x' l i : (forall j, (j < width 0)%nat -> x j = x' j) -> (l = 0 -> (i < width 0)%nat)%nat ->
  unit_value width W b f x l i = unit_value width W b f x' l i.
Proof.
  revert i. induction l as [|l IH]; intros i H Hi; cbn [unit_value]; [apply H; now apply Hi|].
  do 2 f_equal. apply rsumn_ext'. intros j Hj. f_equal. apply IH; [exact H|]. intros ->. exact Hj.
Qed.
Lemma unit_shift width W b f x l i :
  unit_value width W b f x (S l) i
  = unit_value (fun n => width (S n)) (fun n => W (S n)) (fun n => b (S n)) (fun n => f (S n)) (unit_value width W b f x 1) l i.
Proof.
  revert i. induction l as [|l IH]; intros i; [reflexivity|].
  change (unit_value width W b f x (S (S l)) i) with (f (S l) (rsumn (width (S l)) (fun j => W (S l) i j * unit_value width W b f x (S l) j) + b (S l) i)).
  cbn [unit_value]. do 2 f_equal. apply rsumn_ext'. intros j _. f_equal. apply IH.
Qed.
Lemma unit_fun_ext width W b f f' x l i : (forall n, (n < l)%nat -> f n = f' n) -> unit_value width W b f x l i = unit_value width W b f' x l i.
Proof.
  revert i. induction l as [|l IH]; intros i H; [reflexivity|]. cbn [unit_value]. rewrite H by lia. do 2 f_equal. apply rsumn_ext'. intros j _. f_equal.
  apply IH. intros n Hn. apply H. lia.
Qed.
Lemma well_shaped_tail bias width p ps : well_shaped bias width (p :: ps) -> well_shaped bias (fun n => width (S n)) ps.
Proof. intros H l Hl. apply (H (S l)). cbn. lia. Qed.

Lemma hidden_spec bias ps : forall fs s width, List.length fs = List.length ps -> well_shaped bias width ps -> List.length s = width 0%nat ->
  List.length (ffn_hidden bias ps fs s) = width (List.length ps) /\
  forall i, (i < width (List.length ps))%nat ->
  nth i (ffn_hidden bias ps fs s) 0
  = unit_value width (weight_at ps) (bias_at bias ps) (fun l => nth l fs (fun x => x)) (fun j => nth j s 0) (List.length ps) i.
Proof.
  induction ps as [|p ps IH]; intros [|f fs] s width Hf HW Hs; cbn in Hf; try discriminate; [now split|].
  destruct (HW 0%nat ltac:(cbn; lia)) as (W1 & W2 & W3). cbn [nth] in W1, W2, W3.
  assert (HB : bias_ok bias p) by (intros Hb; rewrite W1; now apply W3).
  cbn [ffn_hidden List.length].
  assert (HL : List.length (map f (dense bias p s)) = width 1%nat) by (rewrite map_length, dense_length by exact HB; exact W1).
  destruct (IH fs (map f (dense bias p s)) (fun n => width (S n)) ltac:(lia) (well_shaped_tail _ _ _ _ HW) HL) as [I1 I2].
  split; [exact I1|]. intros i Hi. rewrite (I2 i Hi). rewrite unit_shift.
  apply unit_ext; [|intros E; rewrite E in Hi; exact Hi]. intros j Hj. rewrite nth_map0 by (rewrite dense_length by exact HB; lia).
  cbn [unit_value nth]. f_equal. rewrite dense_nth; [|exact HB|lia|intros r Hr; rewrite Hs; now apply W2]. rewrite Hs. reflexivity.
Qed.

Lemma activations_spec {A} layers (fs : list A) d : fs <> [] -> (List.length fs <= layers + 1)%nat ->
  exists gs, ffn_activations layers fs = Ok gs /\ List.length gs = (layers + 1)%nat /\
  forall l, (l < layers + 1)%nat -> nth l gs d = nth (Nat.min l (List.length fs - 1)) fs d.
Proof.
  intros H HL. unfold ffn_activations. destruct (exists_last H) as (l0 & a & ->). rewrite rev_app_distr. cbn [rev app].
  rewrite app_length in *. cbn [List.length] in *.
  eexists. split; [reflexivity|]. split; [rewrite !app_length, repeat_length; cbn; lia|].
  intros l Hl. destruct (Nat.lt_ge_cases l (List.length l0)) as [C|C].
  - rewrite Nat.min_l by lia. rewrite <- app_assoc. rewrite !app_nth1 by lia. reflexivity.
  - rewrite Nat.min_r by lia. rewrite <- app_assoc. rewrite (app_nth2 l0 [a]) by lia. rewrite app_nth2 by lia.
    replace (List.length l0 + 1 - 1 - List.length l0)%nat with 0%nat by lia.
    change ([a] ++ repeat a (layers + 1 - (List.length l0 + 1))) with (repeat a (S (layers + 1 - (List.length l0 + 1)))).
    cbn [nth]. rewrite (nth_indep _ d a) by (rewrite repeat_length; lia). apply nth_repeat.
Qed.
Lemma removelast_nth {A} (l : list A) d i : (i < List.length l - 1)%nat -> nth i (removelast l) d = nth i l d.
Proof.
  intros H. destruct l as [|a l]; [cbn in H; lia|]. destruct (exists_last (l := a :: l) ltac:(discriminate)) as (l0 & x & E). rewrite E in *.
  rewrite removelast_last. rewrite app_length in H. cbn in H. now rewrite app_nth1 by lia.
Qed.
Lemma removelast_len {A} (l : list A) : List.length (removelast l) = (List.length l - 1)%nat.
Proof. destruct l as [|a l]; [reflexivity|]. destruct (exists_last (l := a :: l) ltac:(discriminate)) as (l0 & x & E). rewrite E, removelast_last, app_length. cbn. lia. Qed.
Lemma last_nth' {A} (l : list A) d : last l d = nth (List.length l - 1) l d.
Proof.
  induction l as [|a [|b l] IH]; [reflexivity|reflexivity|]. change (last (a :: b :: l) d) with (last (b :: l) d). rewrite IH. cbn [List.length].
  replace (S (S (List.length l)) - 1)%nat with (S (S (List.length l) - 1)) by lia. reflexivity.
Qed.

Lemma well_shaped_prefix bias width ps out : well_shaped bias width (ps ++ [out]) -> well_shaped bias width ps.
Proof.
  intros H l Hl. specialize (H l). rewrite app_length in H. cbn in H. rewrite app_nth1 in H by lia. apply H. lia.
Qed.
Lemma unit_params_ext width W b W' b' f x l i : (forall n, (n < l)%nat -> W n = W' n /\ b n = b' n) -> unit_value width W b f x l i = unit_value width W' b' f x l i.
Proof.
  revert i. induction l as [|l IH]; intros i H; [reflexivity|]. cbn [unit_value]. destruct (H l ltac:(lia)) as [-> ->]. do 2 f_equal. apply rsumn_ext'. intros j _. f_equal.
  apply IH. intros n Hn. apply H. lia.
Qed.

(** ** parity *)
Lemma unit_odd width W f x l i : (forall n, (n < l)%nat -> odd_fun (f n)) ->
  unit_value width W (fun _ _ => 0) f (fun j => - x j) l i = - unit_value width W (fun _ _ => 0) f x l i.
Proof.
  revert i. induction l as [|l IH]; intros i H; [reflexivity|]. cbn [unit_value]. rewrite !Rplus_0_r. rewrite <- (H l) by lia. f_equal.
  unfold rsumn. rewrite <- rsum_opp. apply rsum_ext. intros j _. rewrite IH by (intros; apply H; lia). ring.
Qed.

(** ** version strings *)
Lemma to_uint_unorm n : Nat.to_uint n = unorm (Nat.to_uint n).
Proof. rewrite <- Unsigned.to_of. now rewrite Unsigned.of_to. Qed.
Definition first_code (s : string) : nat := match s with EmptyString => 0 | String c _ => nat_of_ascii c end.
Lemma decimal_first n : (48 <= first_code (decimal n) <= 57)%nat /\ ((n > 0)%nat -> (49 <= first_code (decimal n))%nat).
Proof.
  unfold decimal. pose proof (Unsigned.of_to n) as E. pose proof (to_uint_unorm n) as N. destruct (Nat.to_uint n) as [|d|d|d|d|d|d|d|d|d|d] eqn:U.
  1: { exfalso. discriminate N. }
  all: cbn [NilEmpty.string_of_uint first_code]; try (split; [vm_compute; lia|intros _; vm_compute; lia]).
  split; [vm_compute; lia|]. intros Hn. exfalso. unfold unorm in N. cbn [nzhead] in N. destruct (nzhead d) eqn:Z; try discriminate N.
  + injection N as ->. cbn in E. lia.
  + now apply (nzhead_nonzero d u).
Qed.
Lemma decimal_cons n : exists c r, decimal n = String c r /\ (48 <= nat_of_ascii c <= 57)%nat /\ ((n > 0)%nat -> (49 <= nat_of_ascii c)%nat).
Proof.
  destruct (decimal_first n) as [H H']. destruct (decimal n) as [|c r]; [cbn in H; lia|]. exists c, r. now repeat split.
Qed.
Lemma str_leb_head x a y b : str_leb (String x a) (String y b) =
  if (nat_of_ascii x <? nat_of_ascii y)%nat then true else if (nat_of_ascii y <? nat_of_ascii x)%nat then false else str_leb a b.
Proof. reflexivity. Qed.
Lemma str_leb_same x a b : str_leb (String x a) (String x b) = str_leb a b.
Proof. rewrite str_leb_head. now rewrite Nat.ltb_irrefl. Qed.
Lemma version_new v : (major v > 0 \/ minor v <= 9)%nat -> str_leb "0.4.0" (version_string v) = true <-> new_interface v.
Proof.
  unfold new_interface, version_string. intros H. destruct (Nat.eq_dec (major v) 0) as [E|E].
  - rewrite E. change (decimal 0) with "0"%string. cbn [String.append]. rewrite !str_leb_same.
    assert (M : (minor v <= 9)%nat) by lia.
    destruct (decimal_cons (patch v)) as (c & r & Ec & Hc & _). rewrite Ec.
    remember (minor v) as m eqn:Em. clear Em H.
    do 4 (destruct m as [|m]; [split; [discriminate|lia]|]).
    destruct m as [|m].
    { split; [lia|]. intros _. change (decimal 4) with "4"%string. cbn [String.append]. rewrite !str_leb_same, str_leb_head.
      change (nat_of_ascii "0") with 48%nat. destruct (48 <? nat_of_ascii c)%nat; [reflexivity|].
      replace (nat_of_ascii c <? 48)%nat with false by (symmetry; apply Nat.ltb_ge; lia). reflexivity. }
    do 5 (destruct m as [|m]; [split; [lia|reflexivity]|]). lia.
  - split; [lia|]. intros _. destruct (decimal_cons (major v)) as (c & r & Ec & Hc & Hp). rewrite Ec. cbn [String.append]. rewrite str_leb_head.
    change (nat_of_ascii "0") with 48%nat. replace (48 <? nat_of_ascii c)%nat with true; [reflexivity|]. symmetry. apply Nat.ltb_lt. specialize (Hp ltac:(lia)). lia.
Qed.
(** two-digit minor numbers below 40 come before 0.4.0 as strings *)
Lemma version_two_digits v : (major v = 0 -> 10 <= minor v < 40 -> str_leb "0.4.0" (version_string v) = false)%nat.
Proof.
  intros E H. unfold version_string. rewrite E. change (decimal 0) with "0"%string. cbn [String.append]. rewrite !str_leb_same.
  remember (minor v) as m eqn:Em. clear Em. do 10 (destruct m as [|m]; [lia|]). do 30 (destruct m as [|m]; [reflexivity|]). lia.
Qed.

(** ** stacks *)
Lemma replace_mid {A} (pre : list A) old post c :
  firstn (List.length pre) (pre ++ old :: post) ++ c :: skipn (S (List.length pre)) (pre ++ old :: post) = pre ++ c :: post.
Proof. induction pre as [|a pre IH]; [reflexivity|]. cbn [List.length app firstn]. f_equal. exact IH. Qed.
Lemma set_carry_mid (pre : list carry) old post c : same_shape old c -> set_carry (pre ++ old :: post) (List.length pre) c = Ok (pre ++ c :: post).
Proof.
  intros [H1 H2]. unfold set_carry. rewrite replace_mid. rewrite nth_error_app2 by lia. rewrite Nat.sub_diag. cbn [nth_error]. unfold rows_cols. cbn [fst snd].
  rewrite H1, H2, !Nat.eqb_refl. reflexivity.
Qed.
Lemma set_carry_mid_inv (pre : list carry) old post c l : set_carry (pre ++ old :: post) (List.length pre) c = Ok l -> l = pre ++ c :: post.
Proof.
  unfold set_carry. rewrite replace_mid. rewrite nth_error_app2 by lia. rewrite Nat.sub_diag. cbn [nth_error].
  destruct (_ && _); [|discriminate]. intros H. now inversion H.
Qed.
Lemma zero_shape (c : carry) : same_shape (map (map (fun _ => 0)) c) c.
Proof. split; [apply map_length|]. destruct c; [reflexivity|]. cbn. apply map_length. Qed.
Lemma same_shape_trans a b c : same_shape a b -> same_shape b c -> same_shape a c.
Proof. intros [? ?] [? ?]. split; congruence. Qed.

Lemma loop_1d cells : forall cs x cs' y pre, relay (map call2 cells) cs x cs' y -> Forall2 same_shape cs cs' ->
  stack_loop_1d (List.length pre) cs cells (pre ++ zeros_like cs) x = Ok (pre ++ cs', y).
Proof.
  induction cells as [|k cells IH]; intros cs x cs' y pre H HS; inversion H; subst; [cbn; reflexivity|].
  inversion HS; subst. cbn [zeros_like map stack_loop_1d]. match goal with E : call2 _ _ _ = Ok _ |- _ => rewrite E end. cbn [bind fst snd].
  rewrite set_carry_mid by (eapply same_shape_trans; [apply zero_shape|assumption]). cbn [bind].
  match goal with R : relay _ cs0 x' cs'0 y |- _ => specialize (IH cs0 x' cs'0 y (pre ++ [c']) R) end. rewrite app_length in IH. cbn [List.length] in IH.
  rewrite Nat.add_1_r, <- !app_assoc in IH. cbn [app] in IH. apply IH. assumption.
Qed.
Lemma loop_1d_inv cells : forall cs x res y pre, List.length cs = List.length cells ->
  stack_loop_1d (List.length pre) cs cells (pre ++ zeros_like cs) x = Ok (res, y) -> exists cs', res = pre ++ cs' /\ relay (map call2 cells) cs x cs' y.
Proof.
  induction cells as [|k cells IH]; intros [|c cs] x res y pre HL; try discriminate HL.
  - cbn. intros H. inversion H; subst. exists []. split; [reflexivity|constructor].
  - cbn [zeros_like map stack_loop_1d]. destruct (call2 k c x) as [[c' x']|] eqn:E; [|discriminate]. cbn [bind fst snd].
    destruct (set_carry _ _ _) as [l|] eqn:ES; [|discriminate]. cbn [bind]. apply set_carry_mid_inv in ES. subst l. intros H.
    specialize (IH cs x' res y (pre ++ [c']) ltac:(cbn in HL; lia)). rewrite app_length in IH. cbn [List.length] in IH. rewrite Nat.add_1_r, <- !app_assoc in IH. cbn [app] in IH.
    destruct (IH H) as (cs' & -> & R). exists (c' :: cs'). split; [now rewrite <- app_assoc|]. econstructor; eassumption.
Qed.
(** cells of a two-dimensional network get a pair of carries *)
Definition pair_call (k : cell) (c : carry * carry) (x : list R) : result (carry * list R) := call3 k (fst c) (snd c) x.
Lemma loop_2d cells : forall cHs cVs x cs' y pre, List.length cHs = List.length cVs -> relay (map pair_call cells) (combine cHs cVs) x cs' y -> Forall2 same_shape cHs cs' ->
  stack_loop_2d (List.length pre) cHs cVs cells (pre ++ zeros_like cHs) x = Ok (pre ++ cs', y).
Proof.
  induction cells as [|k cells IH]; intros [|cH cHs] [|cV cVs] x cs' y pre HL H HS; try discriminate HL; inversion H; subst; [cbn; reflexivity|].
  inversion HS; subst. cbn [zeros_like map stack_loop_2d]. match goal with E : pair_call _ _ _ = Ok _ |- _ => unfold pair_call in E; cbn [fst snd] in E; rewrite E end. cbn [bind fst snd].
  rewrite set_carry_mid by (eapply same_shape_trans; [apply zero_shape|assumption]). cbn [bind].
  match goal with R : relay _ (combine cHs cVs) x' cs'0 y |- _ => specialize (IH cHs cVs x' cs'0 y (pre ++ [c']) ltac:(cbn in HL; lia) R) end. rewrite app_length in IH. cbn [List.length] in IH.
  rewrite Nat.add_1_r, <- !app_assoc in IH. cbn [app] in IH. apply IH. assumption.
Qed.
Lemma loop_2d_inv cells : forall cHs cVs x res y pre, List.length cHs = List.length cells -> List.length cVs = List.length cells ->
  stack_loop_2d (List.length pre) cHs cVs cells (pre ++ zeros_like cHs) x = Ok (res, y) -> exists cs', res = pre ++ cs' /\ relay (map pair_call cells) (combine cHs cVs) x cs' y.
Proof.
  induction cells as [|k cells IH]; intros [|c cs] [|d ds] x res y pre HL HL2; try discriminate HL; try discriminate HL2.
  - cbn. intros H. inversion H; subst. exists []. split; [reflexivity|constructor].
  - cbn [zeros_like map stack_loop_2d]. destruct (call3 k c d x) as [[c' x']|] eqn:E; [|discriminate]. cbn [bind fst snd].
    destruct (set_carry _ _ _) as [l|] eqn:ES; [|discriminate]. cbn [bind]. apply set_carry_mid_inv in ES. subst l. intros H.
    specialize (IH cs ds x' res y (pre ++ [c']) ltac:(cbn in HL; lia) ltac:(cbn in HL2; lia)). rewrite app_length in IH. cbn [List.length] in IH. rewrite Nat.add_1_r, <- !app_assoc in IH. cbn [app] in IH.
    destruct (IH H) as (cs' & -> & R). exists (c' :: cs'). split; [now rewrite <- app_assoc|]. cbn [combine map]. econstructor; [exact E|eassumption].
Qed.

(** ** cells preserve shapes *)
Lemma relay_total {K} (ks : list (K -> list R -> result (carry * list R))) : forall cs x r h (P : K -> Prop),
  List.length ks = List.length cs -> (forall c, In c cs -> P c) -> List.length x = h ->
  (forall k c x, In k ks -> P c -> List.length x = h -> exists c' y, k c x = Ok (c', y) /\ has_shape r h c' /\ List.length y = h) ->
  exists cs' y, relay ks cs x cs' y /\ List.length cs' = List.length cs /\ (forall c', In c' cs' -> has_shape r h c') /\ List.length y = h.
Proof.
  induction ks as [|k ks IH]; intros [|c cs] x r h P HL HP Hx HK; try discriminate HL.
  - exists [], x. repeat split; auto; [constructor|contradiction|contradiction].
  - destruct (HK k c x (or_introl eq_refl) (HP c (or_introl eq_refl)) Hx) as (c' & x' & E & S1 & Hx').
    destruct (IH cs x' r h P ltac:(cbn in HL; lia) ltac:(intros; apply HP; now right) Hx' ltac:(intros; apply HK; auto; now right)) as (cs' & y & R1' & L & S2 & Hy).
    exists (c' :: cs'), y. split; [econstructor; eassumption|]. split; [cbn; lia|]. split; [|exact Hy].
    intros d [<-|Hd]; [exact S1|now apply S2].
Qed.
Lemma shapes_same r h (cs cs' : list carry) : (0 < r)%nat -> List.length cs' = List.length cs -> (forall c, In c cs -> has_shape r h c) -> (forall c, In c cs' -> has_shape r h c) -> Forall2 same_shape cs cs'.
Proof.
  intros Hr. revert cs'. induction cs as [|c cs IH]; intros [|c' cs'] HL H H'; try discriminate HL; constructor.
  - destruct (H c (or_introl eq_refl)) as [A1 A2], (H' c' (or_introl eq_refl)) as [B1 B2]. split; [congruence|].
    destruct c as [|v c]; [cbn in A1; lia|]. destruct c' as [|v' c']; [cbn in B1; lia|]. cbn [hd]. rewrite A2, B2 by now left. reflexivity.
  - apply IH; [cbn in HL; lia| |]; intros; [apply H|apply H']; now right.
Qed.
Lemma dense_len_shape bias m n p s : kernel_shape m n p -> (bias = true -> List.length (dp_bias p) = n) -> List.length (dense bias p s) = n.
Proof. intros [H _] HB. rewrite dense_length; [exact H|]. intros E. rewrite H. now apply HB. Qed.
Lemma vec_add_length x y h : List.length x = h -> List.length y = h -> List.length (vec_add x y) = h.
Proof. intros H1 H2. unfold vec_add. rewrite map2_length. lia. Qed.
Lemma one_row h c : has_shape 1 h c -> exists v, c = [v] /\ List.length v = h.
Proof. intros [H1 H2]. destruct c as [|v [|w c]]; try (cbn in H1; lia). exists v. split; [reflexivity|]. apply H2. now left. Qed.
Lemma two_rows h c : has_shape 2 h c -> exists v w, c = [v; w] /\ List.length v = h /\ List.length w = h.
Proof. intros [H1 H2]. destruct c as [|v [|w [|u c]]]; try (cbn in H1; lia). exists v, w. repeat split; apply H2; cbn; auto. Qed.
Lemma mix_shape r h pH pV cH cV : kernel_shape h h pH -> List.length (dp_bias pH) = h -> kernel_shape h h pV -> has_shape r h cH -> has_shape r h cV -> has_shape r h (mix_carries pH pV cH cV).
Proof.
  intros H1 H2 H3 [H4 H5] [H6 H7]. unfold mix_carries. split; [rewrite map2_length, !map_length; lia|].
  intros v Hv. unfold map2 in Hv. apply in_map_iff in Hv as [[a b] [<- Hab]]. pose proof (in_combine_l _ _ _ _ Hab) as Ha. pose proof (in_combine_r _ _ _ _ Hab) as Hb.
  apply in_map_iff in Ha as [a' [<- _]]. apply in_map_iff in Hb as [b' [<- _]]. apply vec_add_length; apply (dense_len_shape _ h); auto. discriminate.
Qed.

(** ** values of vanilla stacks *)
Lemma dense_row p s m n i : kernel_shape m n p -> List.length s = m -> (i < n)%nat -> nth i (dense false p s) 0 = row_dot p i s.
Proof.
  intros [H1 H2] Hs Hi. rewrite dense_nth; [unfold row_dot; ring|discriminate|lia|]. intros r Hr. rewrite Hs. now apply H2.
Qed.
Lemma vec_add_nth x y i h : List.length x = h -> List.length y = h -> (i < h)%nat -> nth i (vec_add x y) 0 = nth i x 0 + nth i y 0.
Proof. intros H1 H2 Hi. unfold vec_add. apply map2_nth; lia. Qed.
(** a relay of cells that add f(field) to their input *)
Lemma relay_value {K} h (f : R -> R) (ks : list (K -> list R -> result (carry * list R))) (fld : nat -> nat -> R) : forall cs x,
  List.length cs = List.length ks -> List.length x = h ->
  (forall j k c s, nth_error ks j = Some k -> nth_error cs j = Some c -> List.length s = h ->
     exists v, k c s = Ok ([v], v) /\ List.length v = h /\ forall i, (i < h)%nat -> nth i v 0 = f (fld j i) + nth i s 0) ->
  exists cs' y, relay ks cs x cs' y /\ List.length cs' = List.length ks /\ (forall c, In c cs' -> has_shape 1 h c) /\ List.length y = h /\
    (forall j i, (j < List.length ks)%nat -> (i < h)%nat -> nth i (state_of cs' j) 0 = stack_value f fld (fun i => nth i x 0) (S j) i) /\
    (forall i, (i < h)%nat -> nth i y 0 = stack_value f fld (fun i => nth i x 0) (List.length ks) i).
Proof.
  revert fld. induction ks as [|k ks IH]; intros fld [|c cs] x HL Hx HK; try discriminate HL.
  - exists [], x. split; [constructor|]. split; [reflexivity|]. split; [contradiction|]. split; [exact Hx|]. split; [intros j i Hj; cbn in Hj; lia|reflexivity].
  - destruct (HK 0%nat k c x eq_refl eq_refl Hx) as (v & E & Lv & Ev).
    destruct (IH (fun j => fld (S j)) cs v ltac:(cbn in HL; lia) Lv) as (cs' & y & RR & LL & SS & Ly & V1 & V2).
    { intros j k' c' s Hk Hc Hs. apply (HK (S j) k' c' s); assumption. }
    assert (SH : forall j i, (i < h)%nat -> stack_value f (fun j => fld (S j)) (fun i => nth i v 0) j i = stack_value f fld (fun i => nth i x 0) (S j) i).
    { induction j as [|j IHj]; intros i Hi; [cbn; now apply Ev|]. cbn [stack_value]. rewrite IHj by exact Hi. reflexivity. }
    exists ([v] :: cs'), y. split; [econstructor; eassumption|]. split; [cbn; lia|]. split.
    { intros d [<-|Hd]; [|now apply SS]. split; [reflexivity|]. intros w [<-|[]]. exact Lv. }
    split; [exact Ly|]. split.
    + intros [|j] i Hj Hi; [exact (Ev i Hi)|]. cbn in Hj. change (state_of ([v] :: cs') (S j)) with (state_of cs' j). rewrite V1 by lia. now apply SH.
    + intros i Hi. cbn [List.length]. rewrite V2 by exact Hi. now apply SH.
Qed.
