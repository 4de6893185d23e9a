(* The distributive law on trees: summing a product of local factors over all assignments of an unrolled tree is the
   message-passing recursion.  Generic commutative semiring; used for sum-product and min-sum decoding. *)
From Coq Require Import Permutation.
From Verif Require Import Base TurboSpec LdpcTreeSpec.
Open Scope Z_scope.

Definition put (r : nat -> Z) (x : nat) (b : Z) : nat -> Z := fun y => if (y =? x)%nat then b else r y.
Definition depends {A} (D : nat -> Prop) (f : (nat -> Z) -> A) : Prop := forall r r', (forall x, D x -> r x = r' x) -> f r = f r'.

Lemma without_In l x y : In y (without l x) <-> In y l /\ y <> x.
Proof. unfold without. rewrite filter_In. destruct (Nat.eqb_spec y x); cbn [negb]; intuition congruence. Qed.
Lemma put_same r x b : put r x b x = b. Proof. unfold put. rewrite Nat.eqb_refl. reflexivity. Qed.
Lemma put_other r x b y : y <> x -> put r x b y = r y. Proof. intros H. unfold put. destruct (Nat.eqb_spec y x); [contradiction|reflexivity]. Qed.


Section Semiring.
Context {A : Type} (add mul : A -> A -> A) (zero one : A).
Hypothesis add_comm : forall x y, add x y = add y x.
Hypothesis add_assoc : forall x y z, add x (add y z) = add (add x y) z.
Hypothesis add_0 : forall x, add x zero = x.
Hypothesis mul_comm : forall x y, mul x y = mul y x.
Hypothesis mul_assoc : forall x y z, mul x (mul y z) = mul (mul x y) z.
Hypothesis mul_1 : forall x, mul x one = x.
Hypothesis mul_0 : forall x, mul x zero = zero.
Hypothesis distr : forall x y z, mul x (add y z) = add (mul x y) (mul x z).

Definition bigmul (l : list A) : A := fold_right mul one l.
Definition bigadd (l : list A) : A := fold_right add zero l.
Definition ind (b : bool) : A := if b then one else zero.

Fixpoint sumA (S : list nat) (f : (nat -> Z) -> A) (r : nat -> Z) : A :=
  match S with [] => f r | s :: S' => add (sumA S' f (put r s 0)) (sumA S' f (put r s 1)) end.

Lemma bigmul_app a b : bigmul (a ++ b) = mul (bigmul a) (bigmul b).
Proof. induction a as [|x a IH]; cbn [app bigmul fold_right]; [rewrite mul_comm; symmetry; apply mul_1|]. fold (bigmul (a ++ b)) (bigmul a). rewrite IH. apply mul_assoc. Qed.
Lemma bigmul_perm a b : Permutation a b -> bigmul a = bigmul b.
Proof.
  induction 1; cbn [bigmul fold_right] in *; [reflexivity|f_equal; exact IHPermutation| |congruence].
  rewrite !mul_assoc. f_equal. apply mul_comm.
Qed.
Lemma bigmul_flat {B} (f : B -> A) (g : nat -> list B) l : bigmul (map f (flat_map g l)) = bigmul (map (fun x => bigmul (map f (g x))) l).
Proof. induction l as [|x l IH]; [reflexivity|]. cbn [flat_map map]. rewrite map_app, bigmul_app, IH. reflexivity. Qed.

(* extensionality: f and g need only agree on assignments reachable from r by changing the entries of S to bits *)
Lemma sumA_ext S f g : forall r, (forall r', (forall x, ~ In x S -> r' x = r x) -> (forall x, In x S -> is_bit (r' x)) -> f r' = g r') -> sumA S f r = sumA S g r.
Proof.
  induction S as [|s S IH]; intros r H; cbn [sumA]; [apply H; [auto|intros x []]|].
  assert (K : forall b, is_bit b -> sumA S f (put r s b) = sumA S g (put r s b)).
  { intros b Hb. apply IH. intros r' H1 H2. apply H.
    - intros x Hx. rewrite H1 by (intros Hi; apply Hx; right; exact Hi). apply put_other. intros ->. apply Hx. left. reflexivity.
    - intros x [<-|Hx]; [|apply H2; exact Hx]. destruct (in_dec Nat.eq_dec s S) as [Hi|Hi]; [apply H2; exact Hi|]. rewrite H1, put_same by exact Hi. exact Hb. }
  rewrite (K 0), (K 1) by ((left; reflexivity) || (right; reflexivity)). reflexivity.
Qed.
Lemma sumA_app S1 S2 f : forall r, sumA (S1 ++ S2) f r = sumA S1 (fun r' => sumA S2 f r') r.
Proof. induction S1 as [|s S1 IH]; intros r; [reflexivity|]. cbn [app sumA]. rewrite !IH. reflexivity. Qed.
Lemma sumA_mul_l D f S g : depends D f -> (forall x, In x S -> ~ D x) -> forall r, sumA S (fun r => mul (f r) (g r)) r = mul (f r) (sumA S g r).
Proof.
  intros HD. induction S as [|s S IH]; intros HS r; [reflexivity|]. cbn [sumA]. rewrite !IH by (intros x Hx; apply HS; right; exact Hx).
  assert (E : forall b, f (put r s b) = f r) by (intros b; apply HD; intros x Hx; apply put_other; intros ->; exact (HS s (or_introl eq_refl) Hx)).
  rewrite !E. symmetry. apply distr.
Qed.
Lemma sumA_depends D f S : depends D f -> depends (fun x => D x /\ ~ In x S) (sumA S f).
Proof.
  intros HD. induction S as [|s S IH]; intros r r' H; cbn [sumA]; [apply HD; intros x Hx; apply H; split; [exact Hx|intros []]|].
  f_equal; apply IH; intros x [Hx Hn]; unfold put; destruct (Nat.eqb_spec x s) as [|N]; try reflexivity; apply H; (split; [exact Hx|intros [E|E]; [apply N; congruence|exact (Hn E)]]).
Qed.
Lemma sumA_factor D1 D2 f1 f2 S1 S2 : depends D1 f1 -> depends D2 f2 -> (forall x, In x S1 -> ~ D2 x) -> (forall x, In x S2 -> ~ D1 x) ->
  forall r, sumA (S1 ++ S2) (fun r => mul (f1 r) (f2 r)) r = mul (sumA S1 f1 r) (sumA S2 f2 r).
Proof.
  intros H1 H2 N1 N2 r. rewrite sumA_app. rewrite (sumA_ext S1 _ (fun r' => mul (sumA S2 f2 r') (f1 r'))).
  - rewrite (sumA_mul_l (fun x => D2 x /\ ~ In x S2)); [apply mul_comm|apply sumA_depends; exact H2|]. intros x Hx [Hd _]. exact (N1 x Hx Hd).
  - intros r' _ _. rewrite (sumA_mul_l D1) by assumption. apply mul_comm.
Qed.
Lemma sumA_perm S S' f : Permutation S S' -> NoDup S -> depends (fun _ => True) f -> forall r, sumA S f r = sumA S' f r.
Proof.
  intros HP HN HD. induction HP as [|x l l' HP IH|x y l|l l' l'' HP1 IH1 HP2 IH2]; intros r; [reflexivity| | |].
  - cbn [sumA]. inversion HN; subst. rewrite !IH by assumption. reflexivity.
  - cbn [sumA]. inversion HN as [|? ? Hin HN']; subst. assert (Hne : x <> y) by (intros ->; apply Hin; left; reflexivity).
    assert (E : forall b b', sumA l f (put (put r y b) x b') = sumA l f (put (put r x b') y b)).
    { intros b b'. apply (sumA_depends (fun _ => True)); [exact HD|]. intros z _. unfold put. destruct (Nat.eqb_spec z x), (Nat.eqb_spec z y); subst; try reflexivity; contradiction. }
    rewrite !E. rewrite <- !add_assoc. f_equal. rewrite !add_assoc. f_equal. apply add_comm.
  - rewrite IH1 by exact HN. apply IH2. eapply Permutation_NoDup; eassumption.
Qed.

(* ---------------------------------------------------------------- message passing *)
Variables (vars checks : nat -> list nat) (p : nat -> Z -> A).
Hypothesis sym : forall c v, In c (checks v) -> In v (vars c).
Hypothesis nodup_vars : forall c, NoDup (vars c).
Local Notation vb := (vars_below vars checks).
Local Notation cb := (checks_below vars checks).

Definition even (l : list nat) (r : nat -> Z) : bool := Zsum (map r l) mod 2 =? 0.
Fixpoint G (t c v : nat) (r : nat -> Z) : A :=
  mul (p v (r v)) (match t with O => one | S t' =>
    bigmul (map (fun c' => mul (ind (even (vars c') r)) (bigmul (map (fun w => G t' c' w r) (without (vars c') v)))) (without (checks v) c)) end).

Fixpoint conv (ms : list (Z -> A)) (a : Z) : A :=
  match ms with [] => ind (a =? 0) | m :: ms' => add (mul (m 0) (conv ms' a)) (mul (m 1) (conv ms' (1 - a))) end.
Fixpoint mu (t c v : nat) (b : Z) : A :=
  mul (p v b) (match t with O => one | S t' => bigmul (map (fun c' => conv (map (mu t' c') (without (vars c') v)) b) (without (checks v) c)) end).

Lemma vb_head t c v : exists l, vb t c v = v :: l. Proof. destruct t; eexists; reflexivity. Qed.
Lemma vb_self t c v : In v (vb t c v). Proof. destruct (vb_head t c v) as (l & ->). left. reflexivity. Qed.

Lemma Zsum_without l v r : NoDup l -> In v l -> Zsum (map r l) = r v + Zsum (map r (without l v)).
Proof.
  induction l as [|x l IH]; intros HN HI; [destruct HI|]. inversion HN as [|? ? Hni HN']; subst. cbn [map without filter]. rewrite Zsum_cons. fold (without l v).
  destruct (Nat.eqb_spec x v) as [->|Hne]; cbn [negb].
  - f_equal. f_equal. assert (E : without l v = l); [|rewrite E; reflexivity]. unfold without. clear - Hni. induction l as [|y l IH]; [reflexivity|]. cbn [filter].
    destruct (Nat.eqb_spec y v) as [->|]; [exfalso; apply Hni; left; reflexivity|]. cbn [negb]. f_equal. apply IH. intros Hi. apply Hni. right. exact Hi.
  - destruct HI as [E|HI]; [congruence|]. cbn [map]. rewrite Zsum_cons, IH by assumption. lia.
Qed.
Lemma even_depends l : depends (fun x => In x l) (even l).
Proof. intros r r' H. unfold even. do 3 f_equal. apply map_ext_in. exact H. Qed.

Lemma G_depends t : forall c v, depends (fun x => In x (vb t c v)) (G t c v).
Proof.
  induction t as [|t IH]; intros c v r r' H; cbn [G vars_below] in *.
  - rewrite (H v) by (left; reflexivity). reflexivity.
  - rewrite (H v) by (left; reflexivity). f_equal. f_equal. apply map_ext_in. intros c' Hc'.
    assert (K : forall w, In w (without (vars c') v) -> forall x, In x (vb t c' w) -> r x = r' x).
    { intros w Hw x Hx. apply H. right. apply in_flat_map. exists c'. split; [exact Hc'|]. apply in_flat_map. exists w. split; assumption. }
    f_equal.
    + f_equal. apply even_depends. intros x Hx. destruct (Nat.eq_dec x v) as [->|Hne]; [apply H; left; reflexivity|].
      apply (K x); [apply without_In; split; assumption|apply vb_self].
    + f_equal. apply map_ext_in. intros w Hw. apply IH. exact (K w Hw).
Qed.

Lemma NoDup_app_inv {B} (a b : list B) : NoDup (a ++ b) -> NoDup a /\ NoDup b /\ forall x, In x a -> ~ In x b.
Proof.
  induction a as [|x a IH]; cbn [app]; intros H; [split; [constructor|]; split; [exact H|intros x []]|]. inversion H as [|? ? Hn H']; subst.
  destruct (IH H') as (H1 & H2 & H3). split; [constructor; [intros Hi; apply Hn; apply in_or_app; left; exact Hi|exact H1]|]. split; [exact H2|].
  intros y [<-|Hy] Hb; [apply Hn; apply in_or_app; right; exact Hb|exact (H3 y Hy Hb)].
Qed.

(* one check: the sum over everything below the variables ws *)
Lemma conv_sum t c' : (forall w, NoDup (vb t c' w) -> forall r, is_bit (r w) -> sumA (tl (vb t c' w)) (G t c' w) r = mu t c' w (r w)) ->
  forall ws a r, is_bit a -> NoDup (flat_map (vb t c') ws) ->
    sumA (flat_map (vb t c') ws) (fun r => mul (ind ((a + Zsum (map r ws)) mod 2 =? 0)) (bigmul (map (fun w => G t c' w r) ws))) r = conv (map (mu t c') ws) a.
Proof.
  intros IH ws. induction ws as [|w ws IHw]; intros a r Ha HN.
  - cbn [flat_map sumA map conv bigmul fold_right]. rewrite mul_1. change (Zsum []) with 0. destruct Ha as [-> | ->]; reflexivity.
  - cbn [flat_map] in *. destruct (NoDup_app_inv _ _ HN) as (N1 & N2 & N3). destruct (vb_head t c' w) as (rest & Ew).
    pose proof (IH w N1) as IHm. rewrite Ew in *. cbn [tl] in IHm. cbn [app sumA map conv]. inversion N1 as [|? ? Nw Nrest]; subst.
    assert (K : forall b, is_bit b ->
      sumA (rest ++ flat_map (vb t c') ws) (fun r => mul (ind ((a + Zsum (r w :: map r ws)) mod 2 =? 0)) (bigmul (G t c' w r :: map (fun w => G t c' w r) ws))) (put r w b) =
      mul (mu t c' w b) (conv (map (mu t c') ws) (if b =? 0 then a else 1 - a))).
    { intros b Hb. set (a' := if b =? 0 then a else 1 - a). assert (Ha' : is_bit a') by (unfold a'; destruct Ha as [-> | ->], Hb as [-> | ->]; ((left; reflexivity) || (right; reflexivity))).
      rewrite (sumA_ext _ _ (fun r => mul (G t c' w r) (mul (ind ((a' + Zsum (map r ws)) mod 2 =? 0)) (bigmul (map (fun w => G t c' w r) ws))))).
      - rewrite (sumA_factor (fun x => In x (vb t c' w)) (fun x => In x (flat_map (vb t c') ws))).
        + rewrite IHm by (rewrite put_same; exact Hb). rewrite put_same. f_equal. apply IHw; [exact Ha'|exact N2].
        + apply G_depends.
        + intros r1 r2 H12. f_equal.
          * do 4 f_equal. f_equal. apply map_ext_in. intros x Hx. apply H12. apply in_flat_map. exists x. split; [exact Hx|apply vb_self].
          * f_equal. apply map_ext_in. intros x Hx. apply G_depends. intros y Hy. apply H12. apply in_flat_map. exists x. split; assumption.
        + intros x Hx. apply N3. right. exact Hx.
        + intros x Hx Hin. rewrite Ew in Hin. exact (N3 x Hin Hx).
      - intros r' Hr' _. rewrite Hr'.
        2:{ intros Hin. apply in_app_or in Hin. destruct Hin as [Hin|Hin]; [exact (Nw Hin)|exact (N3 w (or_introl eq_refl) Hin)]. }
        rewrite put_same, Zsum_cons. cbn [bigmul fold_right]. fold (bigmul (map (fun w => G t c' w r') ws)). rewrite !mul_assoc. f_equal. rewrite (mul_comm (G t c' w r')). f_equal. f_equal.
        apply Bool.eq_iff_eq_true. rewrite !Z.eqb_eq. unfold a'. set (z := Zsum (map r' ws)). clearbody z. destruct Ha as [-> | ->], Hb as [-> | ->]; cbn [Z.eqb]; Z.div_mod_to_equations; lia. }
    rewrite (K 0), (K 1) by ((left; reflexivity) || (right; reflexivity)). reflexivity.
Qed.

(* several checks around the same variable *)
Lemma checks_sum t v : (forall c' w, NoDup (vb t c' w) -> forall r, is_bit (r w) -> sumA (tl (vb t c' w)) (G t c' w) r = mu t c' w (r w)) ->
  forall cs r, (forall c', In c' cs -> In v (vars c')) -> is_bit (r v) -> NoDup (v :: flat_map (fun c' => flat_map (vb t c') (without (vars c') v)) cs) ->
    sumA (flat_map (fun c' => flat_map (vb t c') (without (vars c') v)) cs)
      (fun r => bigmul (map (fun c' => mul (ind (even (vars c') r)) (bigmul (map (fun w => G t c' w r) (without (vars c') v)))) cs)) r =
    bigmul (map (fun c' => conv (map (mu t c') (without (vars c') v)) (r v)) cs).
Proof.
  intros IH cs. induction cs as [|c' cs IHc]; intros r Hs Hb HN; [reflexivity|]. cbn [flat_map map bigmul fold_right] in *.
  set (B := fun c' => flat_map (vb t c') (without (vars c') v)) in *. set (F := fun c' (r : nat -> Z) => mul (ind (even (vars c') r)) (bigmul (map (fun w => G t c' w r) (without (vars c') v)))).
  assert (HF : forall d, depends (fun x => x = v \/ In x (B d)) (F d)).
  { intros d r1 r2 H12. unfold F. assert (Kw : forall w, In w (without (vars d) v) -> forall x, In x (vb t d w) -> r1 x = r2 x) by (intros w Hw x Hx; apply H12; right; apply in_flat_map; exists w; split; assumption).
    f_equal.
    - f_equal. apply even_depends. intros x Hx. destruct (Nat.eq_dec x v) as [->|Hne]; [apply H12; left; reflexivity|]. apply (Kw x); [apply without_In; split; assumption|apply vb_self].
    - f_equal. apply map_ext_in. intros w Hw. apply G_depends. exact (Kw w Hw). }
  inversion HN as [|? ? Nv HN']; subst. destruct (NoDup_app_inv _ _ HN') as (N1 & N2 & N3).
  change (sumA (B c' ++ flat_map B cs) (fun r => mul (F c' r) (bigmul (map (fun d => F d r) cs))) r = mul (conv (map (mu t c') (without (vars c') v)) (r v)) (bigmul (map (fun d => conv (map (mu t d) (without (vars d) v)) (r v)) cs))).
  rewrite (sumA_factor (fun x => x = v \/ In x (B c')) (fun x => x = v \/ In x (flat_map B cs))).
  - f_equal.
    + rewrite <- (conv_sum t c' (IH c') (without (vars c') v) (r v) r Hb N1). apply sumA_ext. intros r' Hr' _. unfold F. f_equal. f_equal. unfold even.
      rewrite (Zsum_without (vars c') v) by (try apply nodup_vars; apply Hs; left; reflexivity). rewrite (Hr' v); [reflexivity|]. intros Hi. apply Nv. apply in_or_app. left. exact Hi.
    + apply IHc; [intros d Hd; apply Hs; right; exact Hd|exact Hb|]. constructor; [|exact N2]. intros Hi. apply Nv. apply in_or_app. right. exact Hi.
  - apply HF.
  - intros r1 r2 H12. f_equal. apply map_ext_in. intros d Hd. apply HF. intros x [->|Hx]; apply H12; [left; reflexivity|right; apply in_flat_map; exists d; split; assumption].
  - intros x Hx [->|Hy]; [apply Nv; apply in_or_app; left; exact Hx|exact (N3 x Hx Hy)].
  - intros x Hx [->|Hy]; [apply Nv; apply in_or_app; right; exact Hx|exact (N3 x Hy Hx)].
Qed.

Lemma mu_sum t : forall c v, NoDup (vb t c v) -> forall r, is_bit (r v) -> sumA (tl (vb t c v)) (G t c v) r = mu t c v (r v).
Proof.
  induction t as [|t IH]; intros c v HN r Hb; [reflexivity|]. cbn [vars_below tl G mu] in *.
  set (cs := without (checks v) c) in *.
  set (S := flat_map (fun c' => flat_map (vb t c') (without (vars c') v)) cs) in *. inversion HN as [|? ? Nv HN']; subst.
  rewrite (sumA_mul_l (fun x => x = v) (fun r => p v (r v))).
  - f_equal. apply checks_sum; try assumption. intros c' Hc'. apply sym. apply without_In in Hc'. apply Hc'.
  - intros r1 r2 H12. f_equal. apply H12. reflexivity.
  - intros x Hx ->. exact (Nv Hx).
Qed.

(* ---------------------------------------------------------------- the root *)
Local Notation vars_from := (vars_from vars checks).
Local Notation checks_from := (checks_from vars checks).
Definition root (t v : nat) (b : Z) : A := mul (p v b) (bigmul (map (fun c => conv (map (mu t c) (without (vars c) v)) b) (checks v))).

(* the product of all local factors *)
Definition whole (n m : nat) (r : nat -> Z) : A := mul (bigmul (map (fun u => p u (r u)) (seq 0 n))) (bigmul (map (fun c => ind (even (vars c) r)) (seq 0 m))).

Lemma G_flat t : forall c v r, G t c v r = mul (bigmul (map (fun u => p u (r u)) (vb t c v))) (bigmul (map (fun d => ind (even (vars d) r)) (cb t c v))).
Proof.
  induction t as [|t IH]; intros c v r; [cbn [G vars_below checks_below map bigmul fold_right]; rewrite !mul_1; reflexivity|].
  cbn [G vars_below checks_below]. cbn [map bigmul fold_right]. fold (bigmul (map (fun u => p u (r u)) (flat_map (fun c' => flat_map (vb t c') (without (vars c') v)) (without (checks v) c)))).
  rewrite <- mul_assoc. f_equal. generalize (without (checks v) c). intros cs. rewrite !bigmul_flat. induction cs as [|c' cs IHc]; [cbn; symmetry; apply mul_1|].
  cbn [map bigmul fold_right]. change (fold_right mul one) with bigmul. rewrite IHc. rewrite !bigmul_flat.
  assert (E : bigmul (map (fun w => G t c' w r) (without (vars c') v)) =
    mul (bigmul (map (fun x => bigmul (map (fun u => p u (r u)) (vb t c' x))) (without (vars c') v))) (bigmul (map (fun x => bigmul (map (fun d => ind (even (vars d) r)) (cb t c' x))) (without (vars c') v)))).
  { generalize (without (vars c') v). intros ws. induction ws as [|w ws IHw]; [cbn; symmetry; apply mul_1|]. cbn [map bigmul fold_right]. change (fold_right mul one) with bigmul. rewrite IHw, IH.
    set (x1 := bigmul _). set (x2 := bigmul _). set (x3 := bigmul _). set (x4 := bigmul _). rewrite !mul_assoc. f_equal. rewrite <- !mul_assoc. f_equal. apply mul_comm. }
  rewrite E. set (x1 := bigmul _). set (x2 := bigmul _). set (x3 := bigmul _). set (x4 := bigmul _). set (i := ind _).
  rewrite !mul_assoc. f_equal. rewrite <- !mul_assoc. rewrite (mul_comm i). rewrite <- !mul_assoc. f_equal. rewrite (mul_comm x2). rewrite !mul_assoc. reflexivity.
Qed.

Lemma root_flat t v r : mul (p v (r v)) (bigmul (map (fun c' => mul (ind (even (vars c') r)) (bigmul (map (fun w => G t c' w r) (without (vars c') v)))) (checks v))) =
  mul (bigmul (map (fun u => p u (r u)) (vars_from t v))) (bigmul (map (fun d => ind (even (vars d) r)) (checks_from t v))).
Proof.
  unfold vars_from, checks_from. cbn [map bigmul fold_right]. change (fold_right mul one) with bigmul. rewrite <- mul_assoc. f_equal.
  generalize (checks v). intros cs. rewrite !bigmul_flat. induction cs as [|c' cs IHc]; [cbn; symmetry; apply mul_1|].
  cbn [map bigmul fold_right]. change (fold_right mul one) with bigmul. rewrite IHc. rewrite !bigmul_flat.
  assert (E : bigmul (map (fun w => G t c' w r) (without (vars c') v)) =
    mul (bigmul (map (fun x => bigmul (map (fun u => p u (r u)) (vb t c' x))) (without (vars c') v))) (bigmul (map (fun x => bigmul (map (fun d => ind (even (vars d) r)) (cb t c' x))) (without (vars c') v)))).
  { generalize (without (vars c') v). intros ws. induction ws as [|w ws IHw]; [cbn; symmetry; apply mul_1|]. cbn [map bigmul fold_right]. change (fold_right mul one) with bigmul. rewrite IHw, G_flat.
    set (x1 := bigmul _). set (x2 := bigmul _). set (x3 := bigmul _). set (x4 := bigmul _). rewrite !mul_assoc. f_equal. rewrite <- !mul_assoc. f_equal. apply mul_comm. }
  rewrite E. set (x1 := bigmul _). set (x2 := bigmul _). set (x3 := bigmul _). set (x4 := bigmul _). set (i := ind _).
  rewrite !mul_assoc. f_equal. rewrite <- !mul_assoc. rewrite (mul_comm i). rewrite <- !mul_assoc. f_equal. rewrite (mul_comm x2). rewrite !mul_assoc. reflexivity.
Qed.

Lemma root_sum n m t v b r : Permutation (vars_from t v) (seq 0 n) -> Permutation (checks_from t v) (seq 0 m) -> is_bit b ->
  sumA (tl (vars_from t v)) (whole n m) (put r v b) = root t v b.
Proof.
  intros PV PC Hb. assert (HN : NoDup (vars_from t v)) by (eapply Permutation_NoDup; [apply Permutation_sym; exact PV|apply seq_NoDup]).
  rewrite (sumA_ext _ _ (fun r => mul (p v (r v)) (bigmul (map (fun c' => mul (ind (even (vars c') r)) (bigmul (map (fun w => G t c' w r) (without (vars c') v)))) (checks v))))).
  - cbn [vars_from tl]. inversion HN as [|? ? Nv HN']; subst. rewrite (sumA_mul_l (fun x => x = v) (fun r => p v (r v))).
    + rewrite put_same. unfold root. f_equal. transitivity (bigmul (map (fun c => conv (map (mu t c) (without (vars c) v)) (put r v b v)) (checks v))); [|rewrite put_same; reflexivity].
      apply checks_sum; rewrite ?put_same; try assumption; try apply mu_sum. intros c' Hc'. apply sym. exact Hc'.
    + intros r1 r2 H12. f_equal. apply H12. reflexivity.
    + intros x Hx ->. exact (Nv Hx).
  - intros r' _ _. rewrite root_flat. unfold whole. f_equal; apply bigmul_perm, Permutation_map, Permutation_sym; assumption.
Qed.

Lemma sumA_words f n : forall s r, depends (fun _ => True) f ->
  sumA (seq s n) f r = bigadd (map (fun x => f (fun i => if ((s <=? i) && (i <? s + n))%nat then nth (i - s) x 0 else r i)) (all_bits n)).
Proof.
  induction n as [|n IH]; intros s r HD.
  - cbn [seq sumA all_bits map bigadd fold_right]. rewrite add_0. apply HD. intros i _. replace ((s <=? i) && (i <? s + 0))%nat with false by lia. reflexivity.
  - cbn [seq sumA all_bits]. rewrite map_app, !map_map. rewrite !IH by exact HD.
    assert (BA : forall a b, bigadd (a ++ b) = add (bigadd a) (bigadd b)).
    { induction a as [|x a IHa]; intros b0; cbn [app bigadd fold_right]; [rewrite add_comm; symmetry; apply add_0|]. change (fold_right add zero) with bigadd. rewrite IHa. apply add_assoc. }
    rewrite BA. f_equal; f_equal; apply map_ext; intros x; apply HD; intros i _; unfold put;
      (destruct (Nat.eqb_spec i s) as [->|Hne];
       [replace ((S s <=? s) && (s <? S s + n))%nat with false by lia; replace ((s <=? s) && (s <? s + S n))%nat with true by lia; rewrite Nat.sub_diag; reflexivity|
        destruct (Nat.le_gt_cases (S s) i);
        [replace (S s <=? i)%nat with true by lia; replace (s <=? i)%nat with true by lia; replace (i <? s + S n)%nat with (i <? S s + n)%nat by lia; cbn [andb];
         destruct (i <? S s + n)%nat; [|reflexivity]; replace (i - s)%nat with (S (i - S s)) by lia; reflexivity
        |replace (S s <=? i)%nat with false by lia; replace (s <=? i)%nat with false by lia; reflexivity]]).
Qed.

Lemma all_bits_size n : forall x : list Z, In x (all_bits n) -> length x = n.
Proof. induction n as [|n IH]; intros x H; [destruct H as [<-|[]]; reflexivity|]. cbn [all_bits] in H. apply in_app_or in H. destruct H as [H|H]; apply in_map_iff in H; destruct H as (y & <- & Hy); cbn [length]; f_equal; apply IH; exact Hy. Qed.
Lemma whole_depends n m : depends (fun _ => True) (whole n m).
Proof.
  intros r r' H. unfold whole. f_equal; f_equal; apply map_ext; intros u; [rewrite (H u I); reflexivity|]. f_equal. unfold even. do 3 f_equal. apply map_ext. intros w. apply H. exact I.
Qed.

(* the distributive law: the sum over all words with bit v equal to b *)
Theorem tree_sum n m t v b : Permutation (vars_from t v) (seq 0 n) -> Permutation (checks_from t v) (seq 0 m) -> is_bit b ->
  bigadd (map (fun x => mul (ind (nth v x 0 =? b)) (whole n m (fun i => nth i x 0))) (all_bits n)) = root t v b.
Proof.
  intros PV PC Hb. assert (HN : NoDup (vars_from t v)) by (eapply Permutation_NoDup; [apply Permutation_sym; exact PV|apply seq_NoDup]).
  set (F := fun r : nat -> Z => mul (ind (r v =? b)) (whole n m r)).
  assert (HF : depends (fun _ => True) F) by (intros r r' H; unfold F; rewrite (H v I), (whole_depends n m r r' H); reflexivity).
  assert (Hv : (v < n)%nat) by (assert (In v (seq 0 n)) by (eapply Permutation_in; [exact PV|left; reflexivity]); rewrite in_seq in *; lia).
  transitivity (sumA (seq 0 n) F (fun _ => 0)).
  - rewrite sumA_words by exact HF. f_equal. apply map_ext_in. intros x Hx. apply all_bits_size in Hx. apply (HF (fun i => nth i x 0)). intros i _. rewrite Nat.sub_0_r. destruct (Nat.ltb_spec i n).
    + replace (0 <=? i)%nat with true by lia. replace (i <? 0 + n)%nat with true by lia. reflexivity.
    + replace (i <? 0 + n)%nat with false by lia. rewrite andb_false_r. apply nth_overflow. lia.
  - rewrite <- (sumA_perm (vars_from t v) (seq 0 n)) by assumption. unfold vars_from. cbn [sumA]. change (flat_map _ (checks v)) with (tl (vars_from t v)).
    inversion HN as [|? ? Nv HN']; subst. change (flat_map _ (checks v)) with (tl (vars_from t v)) in *.
    assert (K : forall b', sumA (tl (vars_from t v)) F (put (fun _ => 0) v b') = mul (ind (b' =? b)) (sumA (tl (vars_from t v)) (whole n m) (put (fun _ => 0) v b'))).
    { intros b'. unfold F. rewrite (sumA_mul_l (fun x => x = v) (fun r => ind (r v =? b))); [rewrite put_same; reflexivity| |].
      - intros r1 r2 H12. rewrite (H12 v eq_refl). reflexivity.
      - intros x Hx ->. exact (Nv Hx). }
    rewrite !K, !(root_sum n m) by (assumption || (left; reflexivity) || (right; reflexivity)).
    destruct Hb as [-> | ->]; cbn [Z.eqb ind].
    + rewrite (mul_comm zero), mul_0, add_0, mul_comm, mul_1. reflexivity.
    + rewrite (mul_comm zero), mul_0, add_comm, add_0, mul_comm, mul_1. reflexivity.
Qed.
End Semiring.
