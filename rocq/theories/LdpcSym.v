(* Symmetries of belief propagation: sign changes along a codeword, scaling of the min-sum messages. *)
From Coq Require Import Reals Lra.
From Verif Require Import Base TurboSpec TurboMap LdpcModel LdpcSpec LdpcProofs LdpcDecModel LdpcDecProofs LdpcBPSpec LdpcTreeSpec LdpcBP LdpcTree.
Open Scope R_scope.
Notation nth := List.nth.
Notation length := List.length.

Definition pm (s : R) : Prop := s = 1 \/ s = -1.
Lemma pm_mult a b : pm a -> pm b -> pm (a * b). Proof. intros [->| ->] [->| ->]; unfold pm; lra. Qed.
Lemma pm_sq a : pm a -> a * a = 1. Proof. intros [->| ->]; lra. Qed.
Lemma clip_pm s x : pm s -> clip500 (s * x) = s * clip500 x.
Proof.
  intros [->| ->]; [rewrite !Rmult_1_l; reflexivity|]. unfold clip500, Rmax, Rmin.
  destruct (Rle_dec 500 (-1 * x)); destruct (Rle_dec 500 x); repeat match goal with |- context [if ?b then _ else _] => destruct b end; lra.
Qed.
Lemma tanh_pm s x : pm s -> tanh (s * x * / 2) = s * tanh (x * / 2).
Proof.
  intros [->| ->]; [rewrite !Rmult_1_l; reflexivity|]. replace (-1 * x * / 2) with (- (x * / 2)) by lra. unfold tanh. unfold sinh, cosh. rewrite Ropp_involutive.
  pose proof (exp_pos (x * / 2)). pose proof (exp_pos (- (x * / 2))). field. lra.
Qed.
Lemma prod_tanh_pm {A} (s q : A -> R) l : (forall x, In x l -> pm (s x)) ->
  prodR (map (fun l => tanh (l * / 2)) (map (fun x => s x * q x) l)) = prodR (map s l) * prodR (map (fun l => tanh (l * / 2)) (map q l)).
Proof.
  induction l as [|y l IH]; intros HS; [cbn; lra|]. cbn [map prodR fold_right]. fold (prodR (map (fun l => tanh (l * / 2)) (map (fun x => s x * q x) l))) (prodR (map s l)) (prodR (map (fun l => tanh (l * / 2)) (map q l))).
  rewrite IH by (intros x Hx; apply HS; right; exact Hx). rewrite tanh_pm by (apply HS; left; reflexivity). ring.
Qed.
Lemma prod_pm {A} (s : A -> R) l : (forall x, In x l -> pm (s x)) -> pm (prodR (map s l)).
Proof. induction l as [|y l IH]; intros HS; [left; reflexivity|]. cbn [map prodR fold_right]. apply pm_mult; [apply HS; left; reflexivity|apply IH; intros x Hx; apply HS; right; exact Hx]. Qed.

Lemma spa_pm {A} (s q : A -> R) l : (forall x, In x l -> pm (s x)) -> spa_rule (map (fun x => s x * q x) l) = prodR (map s l) * spa_rule (map q l).
Proof.
  intros HS. destruct l as [|y l']; [cbn; lra|]. set (l := y :: l') in *. pose proof (prod_pm s l HS) as HP. pose proof (prod_tanh_pm s q l HS) as HT.
  destruct (parity_facts (map (fun x => s x * q x) l)) as (A1 & A2 & A3 & _ & A5). destruct (parity_facts (map q l)) as (B1 & B2 & B3 & _ & B5).
  specialize (A5 ltac:(discriminate)). specialize (B5 ltac:(discriminate)).
  assert (ER : forall ms : list R, ms <> [] -> spa_rule ms = clip500 (ln (parity_prob ms 0 / parity_prob ms 1))) by (intros [|m ms] Hm; [congruence|reflexivity]).
  rewrite !ER by discriminate. rewrite <- clip_pm by exact HP. f_equal. rewrite HT, <- B2 in A2. set (a := parity_prob (map (fun x => s x * q x) l) 0) in *. set (b := parity_prob (map (fun x => s x * q x) l) 1) in *. set (c := parity_prob (map q l) 0) in *. set (d := parity_prob (map q l) 1) in *.
  destruct HP as [E|E]; rewrite E in A2 |- *.
  - assert (a = c /\ b = d) as [-> ->] by lra. lra.
  - assert (a = d /\ b = c) as [-> ->] by lra. replace (d / c) with (/ (c / d)) by (field; lra). rewrite ln_Rinv by (apply Rdiv_lt_0_compat; assumption). lra.
Qed.
Lemma sign_pm s x : pm s -> signR (s * x) = s * signR x.
Proof. intros [->| ->]; unfold signR; repeat match goal with |- context [if ?b then _ else _] => destruct b end; lra. Qed.
Lemma Rabs_pm s x : pm s -> Rabs (s * x) = Rabs x.
Proof. intros [->| ->]; [rewrite Rmult_1_l; reflexivity|]. rewrite Rabs_mult, (Rabs_left (-1)) by lra. lra. Qed.
Lemma msa_pm {A} (s q : A -> R) l : (forall x, In x l -> pm (s x)) -> msa_rule (map (fun x => s x * q x) l) = prodR (map s l) * msa_rule (map q l).
Proof.
  intros HS. unfold msa_rule. rewrite <- Rmult_assoc. f_equal.
  - induction l as [|y l IH]; [cbn; lra|]. cbn [map prodR fold_right]. fold (prodR (map signR (map (fun x => s x * q x) l))) (prodR (map s l)) (prodR (map signR (map q l))).
    rewrite IH by (intros x Hx; apply HS; right; exact Hx). rewrite sign_pm by (apply HS; left; reflexivity). ring.
  - destruct l as [|y l]; [reflexivity|]. cbn [map min_abs]. rewrite Rabs_pm by (apply HS; left; reflexivity). f_equal. rewrite !map_map. apply map_ext_in. intros x Hx. apply Rabs_pm, HS. right. exact Hx.
Qed.

(* ---------------------------------------------------------------- signs of a codeword *)
Definition sgn (b : Z) : R := 1 - 2 * IZR b.
Lemma sgn_pm b : is_bit b -> pm (sgn b). Proof. intros [->| ->]; unfold sgn, pm; lra. Qed.
Lemma prod_sgn {A} (f : A -> Z) l : (forall x, In x l -> is_bit (f x)) -> prodR (map (fun x => sgn (f x)) l) = if (Zsum (map f l) mod 2 =? 0)%Z then 1 else -1.
Proof.
  induction l as [|y l IH]; intros HS; [cbn; reflexivity|]. cbn [map prodR fold_right]. fold (prodR (map (fun x => sgn (f x)) l)). rewrite IH by (intros x Hx; apply HS; right; exact Hx). rewrite Zsum_cons.
  destruct (HS y (or_introl eq_refl)) as [->| ->]; unfold sgn.
  - rewrite Z.add_0_l. destruct (_ =? 0)%Z; lra.
  - destruct (Z.eqb_spec (Zsum (map f l) mod 2) 0) as [E|E]; destruct (Z.eqb_spec ((1 + Zsum (map f l)) mod 2) 0) as [E'|E']; try lra; exfalso; dlia.
Qed.
Lemma prod_without (s : nat -> R) l v : NoDup l -> In v l -> prodR (map s l) = s v * prodR (map s (filter (fun w => negb (w =? v)%nat) l)).
Proof.
  intros HN. induction HN as [|y l Hy HN IH]; intros Hv; [destruct Hv|]. cbn [map filter prodR fold_right]. fold (prodR (map s l)). destruct (Nat.eqb_spec y v) as [->|Hne]; cbn [negb].
  - f_equal. fold (prodR (map s (filter (fun w => negb (w =? v)%nat) l))). cut (filter (fun w => negb (w =? v)%nat) l = l); [intros ->; reflexivity|]. clear - Hy. induction l as [|z l IH]; [reflexivity|]. cbn [filter]. destruct (Nat.eqb_spec z v) as [->|]; cbn [negb]; [exfalso; apply Hy; left; reflexivity|]. f_equal. apply IH. intros Hi. apply Hy. right. exact Hi.
  - destruct Hv as [->|Hv]; [contradiction|]. cbn [map prodR fold_right]. fold (prodR (map s (filter (fun w => negb (w =? v)%nat) l))). rewrite IH by exact Hv. ring.
Qed.

Section Sym.
  Variables (H : arr2) (HB : binary H) (rule : list R -> R) (s : nat -> R).
  Hypothesis Hrule : forall (q : nat -> R) l, rule (map (fun x => s x * q x) l) = prodR (map s l) * rule (map q l).
  Hypothesis Hs : forall v, pm (s v).
  Hypothesis Hc : forall c, (c < length (a_rows H))%nat -> prodR (map s (vars_of H c)) = 1.

  Lemma to_var_sym (q q' : nat -> nat -> R) c v : (c < length (a_rows H))%nat -> In v (vars_of H c) -> (forall w, In w (vars_of H c) -> q' c w = s w * q c w) ->
    to_var H rule q' c v = s v * to_var H rule q c v.
  Proof.
    intros Hcm Hv Hq. unfold to_var. rewrite (map_ext_in (q' c) (fun w => s w * q c w)); [|intros w Hw; apply Hq; apply filter_In in Hw; tauto]. rewrite Hrule. f_equal.
    pose proof (prod_without s (vars_of H c) v (vars_NoDup H c) Hv) as E. rewrite (Hc c Hcm) in E. pose proof (pm_sq (s v) (Hs v)) as E2. rewrite <- (Rmult_1_l (prodR _)), <- E2, Rmult_assoc, <- E. lra.
  Qed.
  Lemma checks_in c v : In c (checks_of H v) -> (v < a_cols H)%nat -> (c < length (a_rows H))%nat /\ In v (vars_of H c).
  Proof. unfold checks_of, vars_of. rewrite !filter_In, !in_seq. intros [Hi He] Hv. split; [lia|]. split; [lia|exact He]. Qed.
  Lemma posterior_sym (L L' : nat -> R) (q q' : nat -> nat -> R) v : (v < a_cols H)%nat -> L' v = s v * L v ->
    (forall c w, (c < length (a_rows H))%nat -> In w (vars_of H c) -> q' c w = s w * q c w) -> posterior H rule L' q' v = s v * posterior H rule L q v.
  Proof.
    intros Hv HL Hq. unfold posterior. rewrite HL, Rmult_plus_distr_l. f_equal. pose proof (fun c Hi => checks_in c v Hi Hv) as HI. revert HI. generalize (checks_of H v). intros l HI. induction l as [|c l IH]; [unfold total; cbn; lra|].
    rewrite !total_cons, IH by (intros c' Hc'; apply HI; right; exact Hc'). destruct (HI c (or_introl eq_refl)) as [Hcm Hvc]. rewrite (to_var_sym q q' c v Hcm Hvc) by (intros w; apply Hq; exact Hcm). ring.
  Qed.
  Variables (L L' : nat -> R) (HL : forall v, L' v = s v * L v).
  Lemma to_check_sym t : forall c v, (c < length (a_rows H))%nat -> In v (vars_of H c) -> to_check H rule L' t c v = s v * to_check H rule L t c v.
  Proof.
    induction t as [|t IH]; intros c v Hcm Hv; cbn [to_check]; [apply HL|]. rewrite (posterior_sym L L' (to_check H rule L t)) by (try exact IH; try apply HL; exact (vars_lt H c v Hv)).
    rewrite (to_var_sym (to_check H rule L t) _ c v Hcm Hv) by (intros w; apply IH; exact Hcm). ring.
  Qed.
  Lemma belief_sym t v : (v < a_cols H)%nat -> belief H rule L' t v = s v * belief H rule L t v.
  Proof. intros Hv. destruct t as [|t]; cbn [belief]; [apply HL|]. apply posterior_sym; [exact Hv|apply HL|]. intros c w. apply to_check_sym. Qed.
End Sym.

(* ---------------------------------------------------------------- scaling *)
Section Scale.
  Variables (H : arr2) (k : R) (Hk : 0 < k) (L L' : nat -> R) (HL : forall v, L' v = k * L v).
  Lemma sign_scale x : signR (k * x) = signR x.
  Proof.
    unfold signR. destruct (Rlt_dec 0 x) as [P|P].
    - destruct (Rlt_dec 0 (k * x)) as [_|Q]; [reflexivity|exfalso; apply Q, Rmult_lt_0_compat; assumption].
    - destruct (Rlt_dec x 0) as [N|N].
      + assert (k * x < 0) by (rewrite <- (Rmult_0_r k); apply Rmult_lt_compat_l; assumption). destruct (Rlt_dec 0 (k * x)); [lra|]. destruct (Rlt_dec (k * x) 0); [reflexivity|lra].
      + replace x with 0 by lra. rewrite Rmult_0_r. destruct (Rlt_dec 0 0); [lra|]. reflexivity.
  Qed.
  Lemma min_scale l : forall m, fold_left Rmin (map (fun y => Rabs (k * y)) l) (k * m) = k * fold_left Rmin (map Rabs l) m.
  Proof.
    induction l as [|y l IH]; intros m; [reflexivity|]. cbn [map fold_left]. rewrite <- IH. f_equal. rewrite Rabs_mult, (Rabs_right k) by lra.
    unfold Rmin. destruct (Rle_dec (k * m) (k * Rabs y)) as [P|P]; destruct (Rle_dec m (Rabs y)) as [Q|Q]; try reflexivity; exfalso.
    - apply Q. apply Rmult_le_reg_l in P; assumption.
    - apply P. apply Rmult_le_compat_l; lra.
  Qed.
  Lemma msa_scale (q : nat -> R) l : msa_rule (map (fun x => k * q x) l) = k * msa_rule (map q l).
  Proof.
    unfold msa_rule. rewrite (Rmult_comm k), Rmult_assoc, (Rmult_comm _ k). f_equal.
    - f_equal. rewrite !map_map. apply map_ext. intros x. apply sign_scale.
    - destruct l as [|y l]; [cbn; lra|]. cbn [map min_abs]. rewrite (Rabs_mult k (q y)), (Rabs_right k) by lra. rewrite <- min_scale. f_equal. rewrite !map_map. reflexivity.
  Qed.
  Lemma to_var_scale (q q' : nat -> nat -> R) c v : (forall c w, q' c w = k * q c w) -> to_var H msa_rule q' c v = k * to_var H msa_rule q c v.
  Proof. intros Hq. unfold to_var. rewrite (map_ext (q' c) (fun w => k * q c w)) by (apply Hq). apply msa_scale. Qed.
  Lemma posterior_scale (q q' : nat -> nat -> R) v : (forall c w, q' c w = k * q c w) -> posterior H msa_rule L' q' v = k * posterior H msa_rule L q v.
  Proof.
    intros Hq. unfold posterior. rewrite HL, Rmult_plus_distr_l. f_equal. generalize (checks_of H v). intros l. induction l as [|c l IH]; [unfold total; cbn; lra|]. rewrite !total_cons, IH, (to_var_scale q q' c v Hq). ring.
  Qed.
  Lemma to_check_scale t : forall c v, to_check H msa_rule L' t c v = k * to_check H msa_rule L t c v.
  Proof. induction t as [|t IH]; intros c v; cbn [to_check]; [apply HL|]. rewrite (posterior_scale (to_check H msa_rule L t)) by exact IH. rewrite (to_var_scale (to_check H msa_rule L t)) by exact IH. ring. Qed.
  Lemma belief_scale t v : belief H msa_rule L' t v = k * belief H msa_rule L t v.
  Proof. destruct t as [|t]; cbn [belief]; [apply HL|]. apply posterior_scale, to_check_scale. Qed.
  Lemma hard_scale t : hard H msa_rule L' t = hard H msa_rule L t.
  Proof.
    unfold hard. apply map_ext. intros v. rewrite belief_scale. unfold negative. set (x := belief H msa_rule L t v). destruct (Rlt_dec x 0) as [N|N].
    - assert (k * x < 0) by (rewrite <- (Rmult_0_r k); apply Rmult_lt_compat_l; assumption). destruct (Rlt_dec (k * x) 0); [reflexivity|lra].
    - assert (0 <= k * x) by (apply Rmult_le_pos; lra). destruct (Rlt_dec (k * x) 0); [lra|reflexivity].
  Qed.
End Scale.
