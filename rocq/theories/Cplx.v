(* Complex numbers over the real numbers of the standard library: the value domain of the signal-processing part of the
   model.  Complex doubles are modelled by exact complex numbers (no rounding, no overflow, no NaN); see DESIGN.md. *)
From Coq Require Export Reals Lra.
From Coq Require Import FunctionalExtensionality Permutation.
From Verif Require Import Base.
Open Scope R_scope.

Record C := mkC { re : R; im : R }.

Definition C0 : C := mkC 0 0.
Definition C1 : C := mkC 1 0.
Definition Ci : C := mkC 0 1.
Definition ofR (x : R) : C := mkC x 0.
Definition Cadd (a b : C) : C := mkC (re a + re b) (im a + im b).
Definition Copp (a : C) : C := mkC (- re a) (- im a).
Definition Csub (a b : C) : C := mkC (re a - re b) (im a - im b).
Definition Cmul (a b : C) : C := mkC (re a * re b - im a * im b) (re a * im b + im a * re b).
Definition Cconj (a : C) : C := mkC (re a) (- im a).
Definition Cscale (x : R) (a : C) : C := mkC (x * re a) (x * im a).
(* squared magnitude and magnitude *)
Definition Cnorm2 (a : C) : R := re a * re a + im a * im a.
Definition Cabs (a : C) : R := sqrt (Cnorm2 a).
(* exp(1j * t) *)
Definition cis (t : R) : C := mkC (cos t) (sin t).

Declare Scope C_scope.
Delimit Scope C_scope with C.
Bind Scope C_scope with C.
Infix "+" := Cadd : C_scope.
Infix "-" := Csub : C_scope.
Infix "*" := Cmul : C_scope.
Notation "- x" := (Copp x) : C_scope.

Lemma C_ext : forall a b : C, re a = re b -> im a = im b -> a = b.
Proof. intros [a1 a2] [b1 b2]; cbn; intros -> ->; reflexivity. Qed.

Ltac creal := apply C_ext; unfold Cadd, Copp, Csub, Cmul, Cconj, Cscale, ofR, C0, C1, Ci; cbn [re im]; try ring.

Lemma C_ring : ring_theory C0 C1 Cadd Cmul Csub Copp (@eq C).
Proof. constructor; intros; creal. Qed.
Add Ring Cring : C_ring.

Lemma Cnorm2_nonneg : forall a, 0 <= Cnorm2 a.
Proof. intros a. unfold Cnorm2. nra. Qed.
Lemma Cnorm2_0 : forall a, Cnorm2 a = 0 -> a = C0.
Proof. intros a H. unfold Cnorm2 in H. apply C_ext; cbn; nra. Qed.
Lemma Cnorm2_C0 : Cnorm2 C0 = 0.
Proof. unfold Cnorm2; cbn; ring. Qed.
Lemma Cnorm2_mul : forall a b, Cnorm2 (a * b)%C = Cnorm2 a * Cnorm2 b.
Proof. intros a b. unfold Cnorm2, Cmul; cbn [re im]. ring. Qed.
Lemma Cnorm2_conj : forall a, Cnorm2 (Cconj a) = Cnorm2 a.
Proof. intros a. unfold Cnorm2, Cconj; cbn [re im]. ring. Qed.
Lemma Cabs_nonneg : forall a, 0 <= Cabs a.
Proof. intros a. apply sqrt_pos. Qed.
Lemma Cabs_sqr : forall a, Cabs a * Cabs a = Cnorm2 a.
Proof. intros a. apply sqrt_sqrt, Cnorm2_nonneg. Qed.
Lemma Cabs_0 : forall a, Cabs a = 0 <-> a = C0.
Proof.
  intros a. split; intros H.
  - apply Cnorm2_0. rewrite <- Cabs_sqr, H. ring.
  - subst a. unfold Cabs. rewrite Cnorm2_C0. apply sqrt_0.
Qed.
Lemma Cabs_mul : forall a b, Cabs (a * b)%C = Cabs a * Cabs b.
Proof. intros a b. unfold Cabs. rewrite Cnorm2_mul. apply sqrt_mult; apply Cnorm2_nonneg. Qed.
Lemma Cabs_le : forall a b, Cabs a <= Cabs b <-> Cnorm2 a <= Cnorm2 b.
Proof.
  intros a b. split; intros H.
  - rewrite <- !Cabs_sqr. apply Rmult_le_compat; try apply Cabs_nonneg; exact H.
  - apply sqrt_le_1_alt, H.
Qed.
Lemma Cnorm2_cis : forall t, Cnorm2 (cis t) = 1.
Proof. intros t. unfold Cnorm2, cis; cbn [re im]. pose proof (sin2_cos2 t) as H. unfold Rsqr in H. lra. Qed.
Lemma Cabs_cis : forall t, Cabs (cis t) = 1.
Proof. intros t. unfold Cabs. rewrite Cnorm2_cis. apply sqrt_1. Qed.
Lemma cis_add : forall s t, cis (s + t) = (cis s * cis t)%C.
Proof. intros s t. unfold cis, Cmul; cbn [re im]. rewrite cos_plus, sin_plus. apply C_ext; cbn [re im]; ring. Qed.
Lemma cis_0 : cis 0 = C1.
Proof. unfold cis. rewrite cos_0, sin_0. reflexivity. Qed.
Lemma cis_opp : forall t, cis (- t) = Cconj (cis t).
Proof. intros t. unfold cis, Cconj. rewrite cos_neg, sin_antisym. reflexivity. Qed.
Lemma cis_2PI : forall k, cis (2 * PI * IZR k) = C1.
Proof.
  intros k. assert (P : forall n : nat, cis (2 * PI * INR n) = C1).
  { induction n as [|n IH]; [cbn [INR]; rewrite Rmult_0_r; apply cis_0|]. rewrite S_INR, Rmult_plus_distr_l, cis_add, IH.
    replace (2 * PI * 1) with (2 * PI) by ring. unfold cis. rewrite cos_2PI, sin_2PI. creal. }
  destruct (Z_le_gt_dec 0 k) as [Hk|Hk].
  - rewrite <- (Z2Nat.id k Hk), <- INR_IZR_INZ. apply P.
  - replace (2 * PI * IZR k) with (- (2 * PI * INR (Z.to_nat (- k)))); [rewrite cis_opp, P; creal|]. rewrite INR_IZR_INZ, Z2Nat.id by lia. rewrite opp_IZR. ring.
Qed.
Lemma cis_period : forall t k, cis (t + 2 * PI * IZR k) = cis t.
Proof. intros t k. rewrite cis_add, cis_2PI. ring. Qed.
Lemma cis_eq_1 : forall t, cis t = C1 -> exists k : Z, t = 2 * PI * IZR k.
Proof.
  intros t H. injection H as Hc Hs. apply sin_eq_0_0 in Hs as [k Hk]. assert (Hpi := PI_RGT_0).
  destruct (Z.Even_or_Odd k) as [[q Hq]|[q Hq]].
  - exists q. rewrite Hk, Hq, mult_IZR. ring.
  - exfalso. assert (E : t = PI + 2 * PI * IZR q) by (rewrite Hk, Hq, plus_IZR, mult_IZR; ring).
    pose proof (f_equal re (cis_period PI q)) as P. cbn [cis re] in P. rewrite E, P, cos_PI in Hc. lra.
Qed.
Lemma cis_eq : forall s t, cis s = cis t -> exists k : Z, s = t + 2 * PI * IZR k.
Proof.
  intros s t H. destruct (cis_eq_1 (s + - t)) as [k Hk].
  - rewrite cis_add, H, <- cis_add. replace (t + - t) with 0 by ring. apply cis_0.
  - exists k. lra.
Qed.

(* ---------------------------------------------------------------- finite sums *)
Definition Rsum (l : list R) : R := fold_right Rplus 0 l.
Definition Csum (l : list C) : C := fold_right Cadd C0 l.

Lemma Rsum_app : forall l l', Rsum (l ++ l') = Rsum l + Rsum l'.
Proof. induction l as [|x l IH]; intros l'; unfold Rsum in *; cbn [app fold_right]; [lra|]. rewrite IH. lra. Qed.
Lemma Rsum_map_add : forall {A} (f g : A -> R) l, Rsum (map (fun x => f x + g x) l) = Rsum (map f l) + Rsum (map g l).
Proof. intros A f g l. induction l as [|x l IH]; cbn [map Rsum fold_right]; [ring|]. unfold Rsum in IH. rewrite IH. ring. Qed.
Lemma Rsum_map_mul : forall {A} (k : R) (f : A -> R) l, Rsum (map (fun x => k * f x) l) = k * Rsum (map f l).
Proof. intros A k f l. induction l as [|x l IH]; cbn [map Rsum fold_right]; [ring|]. unfold Rsum in IH. rewrite IH. ring. Qed.
Lemma Rsum_const : forall {A} (k : R) (l : list A), Rsum (map (fun _ => k) l) = INR (length l) * k.
Proof. intros A k l. induction l as [|x l IH]; cbn [map length Rsum fold_right]; [cbn; ring|]. unfold Rsum in IH. rewrite IH, S_INR. ring. Qed.
Lemma Rsum_map_ext : forall {A} (f g : A -> R) l, (forall x, In x l -> f x = g x) -> Rsum (map f l) = Rsum (map g l).
Proof. intros A f g l H. f_equal. apply map_ext_in. exact H. Qed.
Lemma Rsum_nonneg : forall l, (forall x, In x l -> 0 <= x) -> 0 <= Rsum l.
Proof. induction l as [|x l IH]; intros H; cbn [Rsum fold_right]; [lra|]. fold (Rsum l). pose proof (H x (or_introl eq_refl)). pose proof (IH (fun y Hy => H y (or_intror Hy))). lra. Qed.
Lemma Rsum_zero : forall l, (forall x, In x l -> 0 <= x) -> Rsum l = 0 -> forall x, In x l -> x = 0.
Proof.
  induction l as [|y l IH]; intros H H0 x Hx; [destruct Hx|]. cbn [Rsum fold_right] in H0. fold (Rsum l) in H0.
  pose proof (H y (or_introl eq_refl)). pose proof (Rsum_nonneg l (fun z Hz => H z (or_intror Hz))).
  destruct Hx as [<-|Hx]; [lra|]. apply IH; [intros z Hz; apply H; right; exact Hz|lra|exact Hx].
Qed.
Lemma Rsum_perm : forall l l', Permutation l l' -> Rsum l = Rsum l'.
Proof. intros l l' H. induction H; unfold Rsum in *; cbn [fold_right] in *; lra. Qed.
Lemma Rsum_swap : forall {A B} (f : A -> B -> R) la lb, Rsum (map (fun a => Rsum (map (f a) lb)) la) = Rsum (map (fun b => Rsum (map (fun a => f a b) la)) lb).
Proof.
  intros A B f la lb. induction la as [|a la IH]; cbn [map Rsum fold_right].
  - induction lb; cbn [map fold_right]; [reflexivity|]. unfold Rsum in *. cbn [fold_right]. lra.
  - change (fold_right Rplus 0) with Rsum. rewrite IH, <- Rsum_map_add. reflexivity.
Qed.

Lemma Csum_re : forall l, re (Csum l) = Rsum (map re l).
Proof. induction l as [|x l IH]; cbn [Csum fold_right map Rsum]; [reflexivity|]. fold (Csum l). cbn [Cadd re]. rewrite IH. reflexivity. Qed.
Lemma Csum_im : forall l, im (Csum l) = Rsum (map im l).
Proof. induction l as [|x l IH]; cbn [Csum fold_right map Rsum]; [reflexivity|]. fold (Csum l). cbn [Cadd im]. rewrite IH. reflexivity. Qed.
Lemma Csum_app : forall l l', Csum (l ++ l') = (Csum l + Csum l')%C.
Proof. induction l as [|x l IH]; intros l'; unfold Csum in *; cbn [app fold_right]; [ring|]. rewrite IH. ring. Qed.
Lemma Csum_map_add : forall {A} (f g : A -> C) l, Csum (map (fun x => f x + g x)%C l) = (Csum (map f l) + Csum (map g l))%C.
Proof. intros A f g l. induction l as [|x l IH]; cbn [map Csum fold_right]; [ring|]. unfold Csum in IH. rewrite IH. ring. Qed.
Lemma Csum_map_sub : forall {A} (f g : A -> C) l, Csum (map (fun x => f x - g x)%C l) = (Csum (map f l) - Csum (map g l))%C.
Proof. intros A f g l. induction l as [|x l IH]; cbn [map Csum fold_right]; [ring|]. unfold Csum in IH. rewrite IH. ring. Qed.
Lemma Csum_map_mul : forall {A} (k : C) (f : A -> C) l, Csum (map (fun x => k * f x)%C l) = (k * Csum (map f l))%C.
Proof. intros A k f l. induction l as [|x l IH]; cbn [map Csum fold_right]; [ring|]. unfold Csum in IH. rewrite IH. ring. Qed.
Lemma Csum_map_ext : forall {A} (f g : A -> C) l, (forall x, In x l -> f x = g x) -> Csum (map f l) = Csum (map g l).
Proof. intros A f g l H. f_equal. apply map_ext_in. exact H. Qed.
Lemma Csum_map_0 : forall {A} (l : list A), Csum (map (fun _ => C0) l) = C0.
Proof. intros A l. induction l as [|x l IH]; cbn [map Csum fold_right]; [reflexivity|]. unfold Csum in IH. rewrite IH. ring. Qed.
Lemma Csum_swap : forall {A B} (f : A -> B -> C) la lb, Csum (map (fun a => Csum (map (f a) lb)) la) = Csum (map (fun b => Csum (map (fun a => f a b) la)) lb).
Proof.
  intros A B f la lb. induction la as [|a la IH]; cbn [map Csum fold_right].
  - symmetry. apply (Csum_map_0 lb).
  - change (fold_right Cadd C0) with Csum. rewrite IH, <- Csum_map_add. reflexivity.
Qed.
Lemma Csum_conj : forall l, Cconj (Csum l) = Csum (map Cconj l).
Proof. induction l as [|x l IH]; cbn [Csum fold_right map]; [creal|]. fold (Csum l). fold (Csum (map Cconj l)). rewrite <- IH. creal. Qed.
(* a sum with a single nonzero term *)
Lemma Csum_single : forall (f : nat -> C) n i, (i < n)%nat -> (forall j, (j < n)%nat -> j <> i -> f j = C0) -> Csum (map f (seq 0 n)) = f i.
Proof.
  intros f n. induction n as [|n IH]; intros i Hi H; [lia|]. rewrite seq_S, map_app, Csum_app. cbn [map Csum fold_right]. rewrite Nat.add_0_l. destruct (Nat.eq_dec i n) as [->|Hn].
  - rewrite (Csum_map_ext f (fun _ => C0)), Csum_map_0; [ring|]. intros j Hj. apply in_seq in Hj. apply H; lia.
  - rewrite (IH i) by (try lia; intros; apply H; lia). rewrite (H n) by lia. ring.
Qed.
