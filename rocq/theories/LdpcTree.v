(* Belief propagation on trees computes exact posteriors (sum-product) and exact minimal costs (min-sum). *)
From Coq Require Import Reals Lra Permutation.
From Verif Require Import Base TurboSpec TurboMap TurboLinear LdpcModel LdpcSpec LdpcProofs LdpcFile LdpcDecModel LdpcDecProofs LdpcBPSpec LdpcBP LdpcTreeSpec BPTree.
Open Scope R_scope.
Notation nth := List.nth.
Notation length := List.length.

Section Graph.
  Variable H : arr2.
  Lemma sym_edges c v : binary H -> In c (checks_of H v) -> In v (vars_of H c).
  Proof.
    intros HB Hc. apply filter_In in Hc. destruct Hc as [Hc He]. apply in_seq in Hc. assert (Hv : (v < a_cols H)%nat).
    { destruct (Nat.lt_ge_cases v (a_cols H)) as [|Hge]; [assumption|]. unfold hij in He. rewrite nth_overflow in He by (rewrite (row_len H HB c) by lia; exact Hge). discriminate. }
    assert (Hc2 : True /\ (hij (a_rows H) c v =? 1)%Z = true) by (split; [exact I|exact He]). clear He. rename Hc2 into He.
   apply filter_In. split; [apply in_seq; lia|apply He].
  Qed.
  Lemma edges_sym c v : In v (vars_of H c) -> (c < length (a_rows H))%nat -> In c (checks_of H v).
  Proof. intros Hv Hc. apply filter_In in Hv. apply filter_In. split; [apply in_seq; lia|apply Hv]. Qed.
  Lemma checks_lt c v : In c (checks_of H v) -> (c < length (a_rows H))%nat.
  Proof. intros Hc. apply filter_In in Hc. destruct Hc as [Hc _]. apply in_seq in Hc. lia. Qed.
  Lemma checks_NoDup v : NoDup (checks_of H v). Proof. apply NoDup_filter, seq_NoDup. Qed.

  Lemma total_without (f : nat -> R) l c : NoDup l -> In c l -> total f l = f c + total f (without l c).
  Proof.
    induction l as [|x l IH]; intros HN HI; [destruct HI|]. inversion HN as [|? ? Hni HN']; subst. cbn [without filter]. rewrite total_cons. fold (without l c). destruct (Nat.eqb_spec x c) as [->|Hne]; cbn [negb].
    - f_equal. f_equal. unfold without. clear - Hni. induction l as [|y l IH]; [reflexivity|]. cbn [filter].
      destruct (Nat.eqb_spec y c) as [->|]; [exfalso; apply Hni; left; reflexivity|]. cbn [negb]. f_equal. apply IH. intros Hi. apply Hni. right. exact Hi.
    - destruct HI as [E|HI]; [congruence|]. rewrite total_cons, IH by assumption. lra.
  Qed.
  Lemma without_nonempty l v : NoDup l -> (2 <= length l)%nat -> without l v <> [].
  Proof.
    intros HN Hl. destruct l as [|x [|y l]]; cbn [length] in Hl; try lia. inversion HN as [|? ? Hx _]; subst. cbn [without filter]. destruct (Nat.eqb_spec x v) as [->|]; cbn [negb]; [|discriminate].
    destruct (Nat.eqb_spec y v) as [->|]; cbn [negb]; [exfalso; apply Hx; left; reflexivity|discriminate].
  Qed.
End Graph.

Section Generic.
  Context {A : Type} (add mul : A -> A -> A) (zero one : A) (good : A -> A -> R -> Prop).
  Variables (H : arr2) (rule : list R -> R) (L : nat -> R) (p : nat -> Z -> A).
  Hypothesis good_p : forall v, good (p v 0%Z) (p v 1%Z) (L v).
  Hypothesis good_one : good one one 0.
  Hypothesis good_mul : forall x0 x1 q y0 y1 q', good x0 x1 q -> good y0 y1 q' -> good (mul x0 y0) (mul x1 y1) (q + q').
  Local Notation conv := (conv add mul zero one).
  Hypothesis good_conv : forall (ms : list (Z -> A)) qs, qs <> [] -> Forall2 (fun m q => good (m 0%Z) (m 1%Z) q) ms qs -> good (conv ms 0%Z) (conv ms 1%Z) (rule qs).
  Hypothesis deg2 : forall c, (c < length (a_rows H))%nat -> (2 <= length (vars_of H c))%nat.
  Local Notation mu := (mu add mul zero one (vars_of H) (checks_of H) p).
  Local Notation root := (root add mul zero one (vars_of H) (checks_of H) p).
  Local Notation q := (to_check H rule L).

  Lemma good_bigmul (F : nat -> Z -> A) (f : nat -> R) l : (forall c, In c l -> good (F c 0%Z) (F c 1%Z) (f c)) ->
    good (bigmul mul one (map (fun c => F c 0%Z) l)) (bigmul mul one (map (fun c => F c 1%Z) l)) (total f l).
  Proof.
    induction l as [|c l IH]; intros HG; cbn [map bigmul fold_right]; [apply good_one|]. rewrite total_cons. apply good_mul; [apply HG; left; reflexivity|]. apply IH. intros d Hd. apply HG. right. exact Hd.
  Qed.
  Lemma conv_good t v c' : In c' (checks_of H v) -> (v < a_cols H)%nat -> (forall w, In w (vars_of H c') -> good (mu t c' w 0%Z) (mu t c' w 1%Z) (q t c' w)) ->
    good (conv (map (mu t c') (without (vars_of H c') v)) 0%Z) (conv (map (mu t c') (without (vars_of H c') v)) 1%Z) (to_var H rule (q t) c' v).
  Proof.
    intros Hc Hv IH. unfold to_var. fold (without (vars_of H c') v). apply good_conv.
    - intros E. apply map_eq_nil in E. revert E. apply without_nonempty; [apply vars_NoDup|]. apply deg2. eapply checks_lt, Hc.
    - assert (K : forall w, In w (without (vars_of H c') v) -> good (mu t c' w 0%Z) (mu t c' w 1%Z) (q t c' w)) by (intros w Hw; apply IH; apply without_In in Hw; apply Hw).
      induction (without (vars_of H c') v) as [|w ws IHw]; cbn [map]; constructor; [apply K; left; reflexivity|apply IHw; intros w' Hw'; apply K; right; exact Hw'].
  Qed.
  Lemma mu_good t : forall c v, In c (checks_of H v) -> (v < a_cols H)%nat -> good (mu t c v 0%Z) (mu t c v 1%Z) (q t c v).
  Proof.
    induction t as [|t IH]; intros c v Hc Hv; cbn [BPTree.mu to_check].
    - rewrite <- (Rplus_0_r (L v)). apply good_mul; [apply good_p|apply good_one].
    - unfold posterior. rewrite (total_without _ (checks_of H v) c) by (try apply checks_NoDup; exact Hc).
      match goal with |- good _ _ ?x => replace x with (L v + total (fun c' => to_var H rule (q t) c' v) (without (checks_of H v) c)) by lra end.
      apply good_mul; [apply good_p|]. apply (good_bigmul (fun c' b => conv (map (mu t c') (without (vars_of H c') v)) b)). intros c' Hc'. apply without_In in Hc'. destruct Hc' as [Hc' _].
      apply conv_good; [exact Hc'|exact Hv|]. intros w Hw. apply IH; [apply edges_sym; [exact Hw|eapply checks_lt, Hc']|eapply vars_lt, Hw].
  Qed.
  Lemma root_good t v : (v < a_cols H)%nat -> good (root t v 0%Z) (root t v 1%Z) (belief H rule L (S t) v).
  Proof.
    intros Hv. unfold BPTree.root. cbn [belief]. unfold posterior. apply good_mul; [apply good_p|]. apply (good_bigmul (fun c' b => conv (map (mu t c') (without (vars_of H c') v)) b)).
    intros c' Hc'. apply conv_good; [exact Hc'|exact Hv|]. intros w Hw. apply mu_good; [apply edges_sym; [exact Hw|eapply checks_lt, Hc']|eapply vars_lt, Hw].
  Qed.
End Generic.

(* ---------------------------------------------------------------- sum-product *)
Definition goodR (x0 x1 q : R) : Prop := 0 < x1 /\ x0 = exp q * x1.
Definition plain_rule (ls : list R) : R := ln (parity_prob ls 0 / parity_prob ls 1).

Lemma prob_good l : goodR (prob l 0) (prob l 1) l.
Proof. split; [apply prob_pos|]. unfold prob. cbn [Z.eqb]. pose proof (exp1_pos l). field. lra. Qed.
Lemma good_scale x0 x1 q : goodR x0 x1 q -> exists K, 0 < K /\ x0 = K * prob q 0 /\ x1 = K * prob q 1.
Proof. intros [H1 H0]. exists (x1 * (1 + exp q)). pose proof (exp1_pos q). split; [apply Rmult_lt_0_compat; lra|]. rewrite H0. unfold prob. cbn [Z.eqb]. split; field; lra. Qed.
Lemma conv_parity ms qs : Forall2 (fun m q => goodR (m 0%Z) (m 1%Z) q) ms qs -> exists K, 0 < K /\ conv Rplus Rmult 0 1 ms 0%Z = K * parity_prob qs 0 /\ conv Rplus Rmult 0 1 ms 1%Z = K * parity_prob qs 1.
Proof.
  induction 1 as [|m q ms qs Hm _ (K & HK & E0 & E1)].
  - exists 1. split; [lra|]. unfold parity_prob. cbn. split; lra.
  - destruct (good_scale _ _ _ Hm) as (K' & HK' & F0 & F1). exists (K' * K). split; [apply Rmult_lt_0_compat; assumption|].
    rewrite (parity_cons q qs 0) by (left; reflexivity). rewrite (parity_cons q qs 1) by (right; reflexivity). change (1 - 0)%Z with 1%Z. change (1 - 1)%Z with 0%Z. cbn [conv]. change (1 - 0)%Z with 1%Z. change (1 - 1)%Z with 0%Z. rewrite E0, E1, F0, F1. split; ring.
Qed.
Lemma conv_goodR ms qs : qs <> [] -> Forall2 (fun m q => goodR (m 0%Z) (m 1%Z) q) ms qs -> goodR (conv Rplus Rmult 0 1 ms 0%Z) (conv Rplus Rmult 0 1 ms 1%Z) (plain_rule qs).
Proof.
  intros Hn HF. destruct (conv_parity ms qs HF) as (K & HK & -> & ->). destruct (parity_facts qs) as (_ & _ & P0 & _ & P1). specialize (P1 Hn). split; [apply Rmult_lt_0_compat; assumption|].
  unfold plain_rule. rewrite exp_ln by (apply Rdiv_lt_0_compat; assumption). field. lra.
Qed.

(* the ratio of a parity is at most the ratio of any one of the bits; we need the first *)
Lemma plain_bound l ls : Rabs (plain_rule (l :: ls)) <= Rabs l.
Proof.
  unfold plain_rule. destruct (parity_facts (l :: ls)) as (_ & _ & Q0 & _ & Q1). specialize (Q1 ltac:(discriminate)). revert Q0 Q1.
  rewrite (parity_cons l ls 0) by (left; reflexivity). rewrite (parity_cons l ls 1) by (right; reflexivity). change (1 - 0)%Z with 1%Z. change (1 - 1)%Z with 0%Z.
  destruct (parity_facts ls) as (_ & _ & A0 & A1 & _). set (a := parity_prob ls 0) in *. set (b := parity_prob ls 1) in *. destruct (prob_good l) as [Hp ->]. set (x := prob l 1) in *. set (e := exp l). intros Q0 Q1.
  assert (He : 0 < e) by apply exp_pos. set (N := e * x * a + x * b) in *. set (D := e * x * b + x * a) in *.
  assert (Hxa : 0 < x * a) by (apply Rmult_lt_0_compat; assumption). assert (Hxb : 0 <= x * b) by (apply Rmult_le_pos; lra).
  assert (G : forall r, 0 < r -> / r * D <= N -> N <= r * D -> Rabs (ln (N / D)) <= ln r).
  { intros r Hr H1 H2. apply Rabs_le. split.
    - rewrite <- ln_Rinv by exact Hr. assert (Hle : / r <= N / D). { apply (Rmult_le_reg_r D); [exact Q1|]. unfold Rdiv. rewrite Rmult_assoc, Rinv_l, Rmult_1_r by lra. exact H1. }
      destruct Hle as [Hlt|Heq]; [left; apply ln_increasing; [apply Rinv_0_lt_compat; exact Hr|exact Hlt]|right; rewrite Heq; reflexivity].
    - assert (Hle : N / D <= r). { apply (Rmult_le_reg_r D); [exact Q1|]. unfold Rdiv. rewrite Rmult_assoc, Rinv_l, Rmult_1_r by lra. exact H2. }
      destruct Hle as [Hlt|Heq]; [left; apply ln_increasing; [apply Rdiv_lt_0_compat; assumption|exact Hlt]|right; rewrite Heq; reflexivity]. }
  assert (I1 : forall r s, 0 < r -> 0 < s -> r * s = 1 -> s = / r) by (intros r s Hr Hs Hrs; apply (Rmult_eq_reg_l r); [rewrite Hrs; field; lra|lra]).
  destruct (Rle_dec 0 l) as [Hl|Hl].
  - rewrite (Rabs_right l) by lra. replace l with (ln e) at 1 by apply ln_exp. assert (He1 : 1 <= e) by (unfold e; rewrite <- exp_0; destruct Hl as [Hl| <-]; [left; apply exp_increasing; exact Hl|right; reflexivity]).
    apply G; [exact He| |].
    + unfold N, D. replace (/ e * (e * x * b + x * a)) with (x * b + / e * (x * a)) by (field; lra). assert (/ e <= 1) by (rewrite <- Rinv_1; apply Rinv_le_contravar; lra). nra.
    + unfold N, D. replace (e * (e * x * b + x * a)) with (e * x * a + (e * e) * (x * b)) by ring. assert (0 <= (e * e - 1) * (x * b)) by (apply Rmult_le_pos; [nra|exact Hxb]). lra.
  - rewrite (Rabs_left l) by lra. replace (- l) with (ln (/ e)) by (rewrite ln_Rinv by exact He; unfold e; rewrite ln_exp; reflexivity). assert (He1 : e <= 1) by (unfold e; rewrite <- exp_0; left; apply exp_increasing; lra).
    assert (1 <= / e) by (rewrite <- Rinv_1; apply Rinv_le_contravar; lra).
    apply G; [apply Rinv_0_lt_compat; exact He| |].
    + rewrite Rinv_inv. unfold N, D. replace (e * (e * x * b + x * a)) with (e * x * a + (e * e) * (x * b)) by ring. assert (0 <= (1 - e * e) * (x * b)) by (apply Rmult_le_pos; [nra|exact Hxb]). lra.
    + unfold N, D. replace (/ e * (e * x * b + x * a)) with (x * b + / e * (x * a)) by (field; lra). nra.
Qed.

Lemma total_Rabs_nonneg (L : nat -> R) l : 0 <= total (fun u => Rabs (L u)) l.
Proof. induction l as [|x l IH]; [cbn; lra|]. rewrite total_cons. pose proof (Rabs_pos (L x)). lra. Qed.
Lemma total_flat_map {A} (f : A -> R) (g : nat -> list A) l : total f (flat_map g l) = total (fun x => total f (g x)) l.
Proof. induction l as [|x l IH]; [reflexivity|]. cbn [flat_map]. rewrite total_app, total_cons, IH. reflexivity. Qed.
Lemma total_le {A} (f g : A -> R) l : (forall x, In x l -> f x <= g x) -> total f l <= total g l.
Proof. induction l as [|x l IH]; intros HL; [cbn; lra|]. rewrite !total_cons. pose proof (HL x (or_introl eq_refl)). assert (total f l <= total g l) by (apply IH; intros y Hy; apply HL; right; exact Hy). lra. Qed.
Lemma total_perm {A} (f : A -> R) l l' : Permutation l l' -> total f l = total f l'.
Proof. induction 1; rewrite ?total_cons; [reflexivity|congruence| |congruence]. lra. Qed.
Lemma total_Rabs {A} (f : A -> R) l : Rabs (total f l) <= total (fun x => Rabs (f x)) l.
Proof. induction l as [|x l IH]; [cbn; rewrite Rabs_R0; lra|]. rewrite !total_cons. pose proof (Rabs_triang (f x) (total f l)). lra. Qed.

Section Bound.
  Variables (H : arr2) (L : nat -> R).
  Hypothesis deg2 : forall c, (c < length (a_rows H))%nat -> (2 <= length (vars_of H c))%nat.
  Local Notation vb := (vars_below (vars_of H) (checks_of H)).
  Local Notation vf := (vars_from (vars_of H) (checks_of H)).
  Local Notation tot := (total (fun u => Rabs (L u))).

  Lemma vb_mono t : forall c v, tot (vb t c v) <= tot (vb (S t) c v).
  Proof.
    induction t as [|t IH]; intros c v.
    - cbn [vars_below]. rewrite !total_cons. pose proof (total_Rabs_nonneg L (flat_map (fun c' => flat_map (fun v0 : nat => [v0]) (without (vars_of H c') v)) (without (checks_of H v) c))). rewrite total_nil. lra.
    - change (vb (S (S t)) c v) with (v :: flat_map (fun c' => flat_map (vb (S t) c') (without (vars_of H c') v)) (without (checks_of H v) c)).
      change (vb (S t) c v) with (v :: flat_map (fun c' => flat_map (vb t c') (without (vars_of H c') v)) (without (checks_of H v) c)).
      rewrite !total_cons. apply Rplus_le_compat_l. rewrite !total_flat_map. apply total_le. intros c' _. rewrite !total_flat_map. apply total_le. intros w _. apply IH.
  Qed.
  Lemma vf_mono t v : tot (vf t v) <= tot (vf (S t) v).
  Proof. unfold vars_from. rewrite !total_cons. apply Rplus_le_compat_l. rewrite !total_flat_map. apply total_le. intros c' _. rewrite !total_flat_map. apply total_le. intros w _. apply vb_mono. Qed.
  Lemma vf_mono_le t t' v : (t <= t')%nat -> tot (vf t v) <= tot (vf t' v).
  Proof. induction 1 as [|t' _ IH]; [lra|]. pose proof (vf_mono t' v). lra. Qed.

  Variable rule : list R -> R.
  Hypothesis rule_bound : forall l ls, Rabs (rule (l :: ls)) <= Rabs l.
  Local Notation q := (to_check H rule L).
  Lemma to_var_bound t c v : (c < length (a_rows H))%nat -> (forall w, In w (vars_of H c) -> Rabs (q t c w) <= tot (vb t c w)) ->
    Rabs (to_var H rule (q t) c v) <= tot (flat_map (vb t c) (without (vars_of H c) v)).
  Proof.
    intros Hc IH. unfold to_var. fold (without (vars_of H c) v). pose proof (without_nonempty (vars_of H c) v (vars_NoDup H c) (deg2 c Hc)) as Hne.
    assert (HI : forall w, In w (without (vars_of H c) v) -> In w (vars_of H c)) by (intros w Hw; apply without_In in Hw; apply Hw).
    destruct (without (vars_of H c) v) as [|w ws]; [congruence|]. cbn [map flat_map]. rewrite total_app. eapply Rle_trans; [apply rule_bound|].
    pose proof (IH w (HI w (or_introl eq_refl))). pose proof (total_Rabs_nonneg L (flat_map (vb t c) ws)). lra.
  Qed.
  Lemma to_check_bound t : forall c v, In c (checks_of H v) -> (v < a_cols H)%nat -> Rabs (q t c v) <= tot (vb t c v).
  Proof.
    induction t as [|t IH]; intros c v Hc Hv; cbn [to_check vars_below]; rewrite total_cons; [rewrite total_nil; lra|].
    unfold posterior. rewrite (total_without _ (checks_of H v) c) by (try apply checks_NoDup; exact Hc).
    match goal with |- Rabs ?x <= _ => replace x with (L v + total (fun c' => to_var H rule (q t) c' v) (without (checks_of H v) c)) by lra end.
    eapply Rle_trans; [apply Rabs_triang|]. apply Rplus_le_compat_l. eapply Rle_trans; [apply total_Rabs|]. rewrite total_flat_map. apply total_le. intros c' Hc'. apply without_In in Hc'. destruct Hc' as [Hc' _].
    apply to_var_bound; [eapply checks_lt, Hc'|]. intros w Hw. apply IH; [apply edges_sym; [exact Hw|eapply checks_lt, Hc']|eapply vars_lt, Hw].
  Qed.
  Lemma to_var_small t c v : In c (checks_of H v) -> (v < a_cols H)%nat -> Rabs (to_var H rule (q t) c v) <= tot (vf t v).
  Proof.
    intros Hc Hv. eapply Rle_trans; [apply to_var_bound; [eapply checks_lt, Hc|intros w Hw; apply to_check_bound; [apply edges_sym; [exact Hw|eapply checks_lt, Hc]|eapply vars_lt, Hw]]|].
    unfold vars_from. rewrite total_cons, (total_flat_map _ (fun x => flat_map (vb t x) (without (vars_of H x) v))), (total_without _ (checks_of H v) c) by (try apply checks_NoDup; exact Hc). pose proof (Rabs_pos (L v)).
    assert (0 <= total (fun x => tot (flat_map (vb t x) (without (vars_of H x) v))) (without (checks_of H v) c)); [|lra].
    generalize (without (checks_of H v) c). intros l. induction l as [|x l IHl]; [cbn; lra|]. rewrite total_cons. pose proof (total_Rabs_nonneg L (flat_map (vb t x) (without (vars_of H x) v))). lra.
  Qed.
End Bound.

Lemma clip500_id x : Rabs x <= 500 -> clip500 x = x.
Proof. intros Hx. pose proof (Rle_abs x). pose proof (Rle_abs (- x)). rewrite Rabs_Ropp in *. unfold clip500. rewrite Rmin_right, Rmax_right by lra. reflexivity. Qed.
Lemma spa_plain ls : ls <> [] -> Rabs (plain_rule ls) <= 500 -> spa_rule ls = plain_rule ls.
Proof. intros Hn Hb. destruct ls as [|l ls]; [congruence|]. cbn [spa_rule]. apply clip500_id. exact Hb. Qed.

Section Spa.
  Variables (H : arr2) (L : nat -> R) (T : nat).
  Hypothesis deg2 : forall c, (c < length (a_rows H))%nat -> (2 <= length (vars_of H c))%nat.
  Hypothesis HT : tree H T.
  Hypothesis small : total (fun u => Rabs (L u)) (seq 0 (a_cols H)) <= 500.

  Lemma spa_to_var t c v : (t <= T)%nat -> In c (checks_of H v) -> (v < a_cols H)%nat -> (forall w, In w (vars_of H c) -> to_check H spa_rule L t c w = to_check H plain_rule L t c w) ->
    to_var H spa_rule (to_check H spa_rule L t) c v = to_var H plain_rule (to_check H plain_rule L t) c v.
  Proof.
    intros Ht Hc Hv E. unfold to_var at 1. rewrite (map_ext_in _ (to_check H plain_rule L t c)) by (intros w Hw; apply E; apply filter_In in Hw; apply Hw).
    apply spa_plain.
    - intros E0. apply map_eq_nil in E0. revert E0. apply without_nonempty; [apply vars_NoDup|apply deg2; eapply checks_lt, Hc].
    - eapply Rle_trans; [apply (to_var_small H L deg2 plain_rule plain_bound t c v Hc Hv)|]. eapply Rle_trans; [apply vf_mono_le, Ht|]. destruct (HT v Hv) as [HP _]. rewrite (total_perm _ _ _ HP). exact small.
  Qed.
  Lemma spa_to_check t : forall c v, (t <= S T)%nat -> In c (checks_of H v) -> (v < a_cols H)%nat -> to_check H spa_rule L t c v = to_check H plain_rule L t c v.
  Proof.
    induction t as [|t IH]; intros c v Ht Hc Hv; [reflexivity|]. cbn [to_check]. unfold posterior.
    assert (K : forall d, In d (checks_of H v) -> to_var H spa_rule (to_check H spa_rule L t) d v = to_var H plain_rule (to_check H plain_rule L t) d v).
    { intros d Hd. apply spa_to_var; [lia|exact Hd|exact Hv|]. intros w Hw. apply IH; [lia|apply edges_sym; [exact Hw|eapply checks_lt, Hd]|eapply vars_lt, Hw]. }
    rewrite (K c Hc). rewrite (total_ext _ (fun d => to_var H plain_rule (to_check H plain_rule L t) d v)) by exact K. reflexivity.
  Qed.
  Lemma spa_belief v : (v < a_cols H)%nat -> belief H spa_rule L (S T) v = belief H plain_rule L (S T) v.
  Proof.
    intros Hv. cbn [belief]. unfold posterior. f_equal. apply total_ext. intros d Hd. apply spa_to_var; [lia|exact Hd|exact Hv|]. intros w Hw. apply spa_to_check; [lia|apply edges_sym; [exact Hw|eapply checks_lt, Hd]|eapply vars_lt, Hw].
  Qed.
End Spa.

(* ---------------------------------------------------------------- words *)
Lemma codewords_In H v b x : In x (codewords H v b) <-> length x = a_cols H /\ bits x /\ satisfies H x /\ nth v x 0%Z = b.
Proof.
  unfold codewords. rewrite filter_In, all_bits_in, Bool.andb_true_iff, forallb_forall, Z.eqb_eq. unfold satisfies. split.
  - intros ((H1 & H2) & H3 & H4). repeat split; try assumption. intros i Hi. apply Z.eqb_eq. apply H3. apply in_seq. lia.
  - intros (H1 & H2 & H3 & H4). repeat split; try assumption. intros i Hi. apply in_seq in Hi. apply Z.eqb_eq, H3. lia.
Qed.
Lemma sumto_vars H c x : binary H -> (c < length (a_rows H))%nat -> sumto (a_cols H) (fun j => (hij (a_rows H) c j * nth j x 0)%Z) = Zsum (map (fun i => nth i x 0%Z) (vars_of H c)).
Proof.
  intros HB Hc. unfold sumto, vars_of. generalize (seq 0 (a_cols H)). intros l. induction l as [|j l IH]; [reflexivity|]. cbn [map filter]. rewrite Zsum_cons, IH.
  destruct (entry_bit H HB c j) as [E|E]; rewrite E; [change (0 =? 1)%Z with false|change (1 =? 1)%Z with true]; cbn [map]; rewrite ?Zsum_cons; lia.
Qed.
Lemma even_ok H c x : binary H -> (c < length (a_rows H))%nat -> even (vars_of H c) (fun i => nth i x 0%Z) = (sumto (a_cols H) (fun j => (hij (a_rows H) c j * nth j x 0)%Z) mod 2 =? 0)%Z.
Proof. intros HB Hc. unfold even. rewrite sumto_vars by assumption. reflexivity. Qed.
Lemma weight_prod : forall (ls : list R) x s (p : nat -> Z -> R), length x = length ls -> (forall i, (i < length ls)%nat -> p (s + i)%nat = prob (nth i ls 0)) ->
  bigmul Rmult 1 (map (fun u => p u (nth (u - s) x 0%Z)) (seq s (length ls))) = weight ls x.
Proof.
  induction ls as [|l ls IH]; intros [|b x] s p Hl Hp; cbn [length] in *; try lia; [reflexivity|]. cbn [seq map bigmul fold_right weight]. rewrite Nat.sub_diag. cbn [nth]. rewrite <- (Nat.add_0_r s) at 1. rewrite (Hp 0%nat) by lia. cbn [nth]. f_equal.
  rewrite <- (IH x (S s) p) by (try lia; intros i Hi; replace (S s + i)%nat with (s + S i)%nat by lia; exact (Hp (S i) ltac:(lia))). unfold bigmul. f_equal. apply map_ext_in. intros u Hu. apply in_seq in Hu. replace (u - s)%nat with (S (u - S s)) by lia. reflexivity.
Qed.
Lemma ind_filter (f : list Z -> R) (b : list Z -> bool) l : fold_right Rplus 0 (map (fun x => ind 0 1 (b x) * f x) l) = total f (filter b l).
Proof. induction l as [|x l IH]; [reflexivity|]. cbn [map fold_right filter]. destruct (b x); cbn [ind]; rewrite ?total_cons, IH; lra. Qed.
Lemma ind_all {B} (b : B -> bool) l : bigmul Rmult 1 (map (fun c => ind 0 1 (b c)) l) = ind 0 1 (forallb b l).
Proof. induction l as [|c l IH]; [reflexivity|]. cbn [map bigmul fold_right forallb]. fold (bigmul Rmult 1 (map (fun c => ind 0 1 (b c)) l)). rewrite IH. destruct (b c); cbn [ind andb]; lra. Qed.

Lemma spa_exact H (llr : list R) T v : binary H -> length llr = a_cols H -> (forall c, (c < length (a_rows H))%nat -> (2 <= length (vars_of H c))%nat) -> tree H T ->
  total Rabs llr <= 500 -> (v < a_cols H)%nat ->
  0 < total (weight llr) (codewords H v 1) /\ total (weight llr) (codewords H v 0) = exp (belief H spa_rule (fun u => nth u llr 0) (S T) v) * total (weight llr) (codewords H v 1).
Proof.
  intros HB Hl deg2 HT small Hv. rewrite (spa_belief H _ T deg2 HT); [| |exact Hv].
  2:{ replace (total (fun u => Rabs (nth u llr 0)) (seq 0 (a_cols H))) with (total Rabs llr); [exact small|]. rewrite <- Hl. rewrite <- (total_map Rabs (fun u => nth u llr 0)). f_equal.
      apply (nth_ext _ _ 0 0); [rewrite map_seq_length; reflexivity|]. intros i Hi. rewrite (nth_map_seq (fun u => nth u llr 0)) by exact Hi. reflexivity. }
  destruct (HT v Hv) as [PV PC].
  pose proof (root_good Rplus Rmult 0 1 goodR H plain_rule (fun u => nth u llr 0) (fun u b => prob (nth u llr 0) b)
    (fun w => prob_good (nth w llr 0)) ltac:(split; [lra|rewrite exp_0; lra])) as RG.
  specialize (RG ltac:(intros x0 x1 q y0 y1 q' [G1 E1] [G2 E2]; split; [apply Rmult_lt_0_compat; assumption|rewrite E1, E2, exp_plus; ring])).
  specialize (RG conv_goodR deg2 T v Hv).
  assert (TS : forall b, is_bit b -> total (weight llr) (codewords H v b) = root Rplus Rmult 0 1 (vars_of H) (checks_of H) (fun u b => prob (nth u llr 0) b) T v b).
  { intros b Hb. rewrite <- (tree_sum Rplus Rmult 0 1) with (n := a_cols H) (m := length (a_rows H)); try assumption; try (intros; ring).
    - unfold codewords. rewrite <- ind_filter. unfold bigadd. f_equal. apply map_ext_in. intros x Hx. apply all_bits_in in Hx. destruct Hx as [Hx _]. unfold whole.
      rewrite (map_ext_in (fun c => ind 0 1 (even (vars_of H c) (fun i => nth i x 0%Z))) (fun c => ind 0 1 (sumto (a_cols H) (fun j => (hij (a_rows H) c j * nth j x 0)%Z) mod 2 =? 0)%Z)) by (intros c Hc; apply in_seq in Hc; rewrite even_ok by (try assumption; lia); reflexivity).
      rewrite ind_all. rewrite <- (weight_prod llr x 0 (fun u b => prob (nth u llr 0) b)) by (try lia; reflexivity). rewrite <- Hl.
      rewrite (map_ext (fun u => prob (nth u llr 0) (nth (u - 0) x 0%Z)) (fun u => prob (nth u llr 0) (nth u x 0%Z))) by (intros u; rewrite Nat.sub_0_r; reflexivity).
      destruct (forallb _ _), (_ =? b)%Z; cbn [andb ind]; ring.
    - intros c w Hc. apply sym_edges; assumption.
    - apply vars_NoDup. }
  destruct RG as [G1 G0]. rewrite !TS by ((left; reflexivity) || (right; reflexivity)). split; assumption.
Qed.

(* ---------------------------------------------------------------- min-sum: the (min, +) semiring *)
Definition minO (x y : option R) : option R := match x, y with None, _ => y | _, None => x | Some a, Some b => Some (Rmin a b) end.
Definition addO (x y : option R) : option R := match x, y with Some a, Some b => Some (a + b) | _, _ => None end.
Definition goodO (x0 x1 : option R) (q : R) : Prop := exists a b, x0 = Some a /\ x1 = Some b /\ q = b - a.

Ltac rmin := repeat (match goal with |- context [Rmin ?a ?b] =>
    lazymatch a with context [Rmin] => fail | _ => lazymatch b with context [Rmin] => fail | _ => let H := fresh in destruct (Rle_dec a b) as [H|H]; [rewrite (Rmin_left a b) by lra|rewrite (Rmin_right a b) by lra] end end end); try lra.
Lemma minO_comm x y : minO x y = minO y x. Proof. destruct x, y; cbn; try reflexivity. f_equal. apply Rmin_comm. Qed.
Lemma minO_assoc x y z : minO x (minO y z) = minO (minO x y) z. Proof. destruct x, y, z; cbn; try reflexivity. f_equal. rmin. Qed.
Lemma minO_0 x : minO x None = x. Proof. destruct x; reflexivity. Qed.
Lemma addO_comm x y : addO x y = addO y x. Proof. destruct x, y; cbn; try reflexivity. f_equal. lra. Qed.
Lemma addO_assoc x y z : addO x (addO y z) = addO (addO x y) z. Proof. destruct x, y, z; cbn; try reflexivity. f_equal. lra. Qed.
Lemma addO_1 x : addO x (Some 0) = x. Proof. destruct x; cbn; try reflexivity. f_equal. lra. Qed.
Lemma addO_0 x : addO x None = None. Proof. destruct x; reflexivity. Qed.
Lemma addO_distr x y z : addO x (minO y z) = minO (addO x y) (addO x z). Proof. destruct x, y, z; cbn; try reflexivity. f_equal. rmin. Qed.

Lemma fold_min l : forall x y, fold_left Rmin l (Rmin x y) = Rmin x (fold_left Rmin l y).
Proof. induction l as [|z l IH]; intros x y; [reflexivity|]. cbn [fold_left]. rewrite <- IH. f_equal. rmin. Qed.
Lemma min_abs_cons x y l : min_abs (x :: y :: l) = Rmin (Rabs x) (min_abs (y :: l)).
Proof. cbn [min_abs map fold_left]. apply fold_min. Qed.
Definition join (q d : R) : R := signR q * signR d * Rmin (Rabs q) (Rabs d).
Lemma signR_cases x : (0 < x /\ signR x = 1 /\ Rabs x = x) \/ (x < 0 /\ signR x = -1 /\ Rabs x = - x) \/ (x = 0 /\ signR x = 0 /\ Rabs x = 0).
Proof.
  unfold signR. destruct (Rlt_dec 0 x) as [Hp|Hp]; [left; split; [exact Hp|split; [reflexivity|apply Rabs_right; lra]]|]. destruct (Rlt_dec x 0) as [Hn|Hn]; [right; left; split; [exact Hn|split; [reflexivity|apply Rabs_left; exact Hn]]|].
  right. right. assert (x = 0) as -> by lra. rewrite Rabs_R0. auto.
Qed.
Lemma msa_facts l : forall x, Rabs (msa_rule (x :: l)) = min_abs (x :: l) /\ (min_abs (x :: l) <> 0 -> signR (msa_rule (x :: l)) = prodR (map signR (x :: l))).
Proof.
  assert (G : forall s m, (s = 1 \/ s = -1 \/ m = 0) -> 0 <= m -> Rabs (s * m) = m /\ (m <> 0 -> signR (s * m) = s)).
  { intros s m Hs Hm. destruct Hs as [-> |[-> | ->]].
    - rewrite Rmult_1_l. destruct (signR_cases m) as [(H1 & H2 & H3)|[(H1 & H2 & H3)|(H1 & H2 & H3)]]; rewrite H2, H3; split; try lra; intros; lra.
    - destruct (signR_cases (-1 * m)) as [(H1 & H2 & H3)|[(H1 & H2 & H3)|(H1 & H2 & H3)]]; rewrite H2, H3; split; try lra; intros; lra.
    - rewrite Rmult_0_r, Rabs_R0. split; [reflexivity|lra]. }
  assert (N : forall l x, 0 <= min_abs (x :: l)).
  { clear. induction l as [|y l IH]; intros x; [cbn [min_abs map fold_left]; apply Rabs_pos|]. rewrite min_abs_cons. apply Rmin_glb; [apply Rabs_pos|apply IH]. }
  assert (S : forall l x, prodR (map signR (x :: l)) = 1 \/ prodR (map signR (x :: l)) = -1 \/ min_abs (x :: l) = 0).
  { clear G. induction l0 as [|y l0 IH]; intros x.
    - cbn [map prodR fold_right min_abs fold_left]. destruct (signR_cases x) as [(H1 & H2 & H3)|[(H1 & H2 & H3)|(H1 & H2 & H3)]]; rewrite H2, H3; lra.
    - rewrite min_abs_cons. pose proof (N l0 y) as Hn. cbn [map prodR fold_right]. specialize (IH y). cbn [map prodR fold_right] in IH. set (P := signR y * fold_right Rmult 1 (map signR l0)) in *.
      destruct IH as [E|[E|E]]; [| |right; right; rewrite E; apply Rmin_right, Rabs_pos]; rewrite E;
        (destruct (signR_cases x) as [(H1 & H2 & H3)|[(H1 & H2 & H3)|(H1 & H2 & H3)]]; rewrite H2, H3; [lra|lra|right; right; apply Rmin_left; exact Hn]). }
  intros x. unfold msa_rule. apply G; [apply S|apply N].
Qed.
Lemma msa_cons x y l : msa_rule (x :: y :: l) = join x (msa_rule (y :: l)).
Proof.
  unfold join. destruct (msa_facts l y) as [E1 E2]. rewrite E1, <- min_abs_cons. unfold msa_rule at 1. cbn [map prodR fold_right]. change (signR y * fold_right Rmult 1 (map signR l)) with (prodR (map signR (y :: l))).
  destruct (Req_dec (min_abs (y :: l)) 0) as [E0|E0]; [|rewrite (E2 E0); reflexivity].
  rewrite min_abs_cons, E0, Rmin_right by apply Rabs_pos. lra.
Qed.
Lemma msa_one x : msa_rule [x] = x.
Proof. unfold msa_rule. cbn [map prodR fold_right min_abs fold_left]. destruct (signR_cases x) as [(H1 & H2 & H3)|[(H1 & H2 & H3)|(H1 & H2 & H3)]]; rewrite H2, H3; lra. Qed.
Lemma join_min q d : join q d = Rmin d q - Rmin 0 (q + d).
Proof.
  unfold join. destruct (signR_cases q) as [(H1 & H2 & H3)|[(H1 & H2 & H3)|(H1 & H2 & H3)]]; destruct (signR_cases d) as [(G1 & G2 & G3)|[(G1 & G2 & G3)|(G1 & G2 & G3)]]; rewrite H2, H3, G2, G3; rmin.
Qed.
Local Notation convO := (conv minO addO None (Some 0)).
Lemma conv_goodO (ms : list (Z -> option R)) qs : qs <> [] -> Forall2 (fun m q => goodO (m 0%Z) (m 1%Z) q) ms qs -> goodO (convO ms 0%Z) (convO ms 1%Z) (msa_rule qs).
Proof.
  intros Hn HF. induction HF as [|m q ms qs (a & b & E0 & E1 & ->) HF IH]; [congruence|]. destruct qs as [|q qs].
  - inversion HF; subst. cbn [conv]. change (1 - 0)%Z with 1%Z. change (1 - 1)%Z with 0%Z. change (ind None (Some 0) (0 =? 0)%Z) with (Some 0). change (ind None (Some 0) (1 =? 0)%Z) with (@None R).
    rewrite E0, E1. cbn [addO minO]. exists a, b. rewrite !Rplus_0_r, msa_one. repeat split.
  - destruct (IH ltac:(discriminate)) as (c & d & F0 & F1 & Ed). cbn [conv]. change (1 - 0)%Z with 1%Z. change (1 - 1)%Z with 0%Z. rewrite F0, F1, E0, E1. cbn [addO minO].
    eexists _, _. split; [reflexivity|]. split; [reflexivity|]. rewrite msa_cons, Ed, join_min. rmin.
Qed.

Lemma cost_sum : forall (ls : list R) x s (p : nat -> Z -> option R), length x = length ls -> (forall i b, (i < length ls)%nat -> p (s + i)%nat b = Some (IZR b * nth i ls 0)) ->
  bigmul addO (Some 0) (map (fun u => p u (nth (u - s) x 0%Z)) (seq s (length ls))) = Some (cost ls x).
Proof.
  induction ls as [|l ls IH]; intros [|b x] s p Hl Hp; cbn [length] in *; try lia; [reflexivity|]. cbn [seq map bigmul fold_right cost]. rewrite Nat.sub_diag. cbn [nth]. rewrite <- (Nat.add_0_r s) at 1. rewrite (Hp 0%nat) by lia. cbn [nth].
  pose proof (IH x (S s) p ltac:(lia) ltac:(intros i b' Hi; replace (S s + i)%nat with (s + S i)%nat by lia; exact (Hp (S i) b' ltac:(lia)))) as E. unfold bigmul in E.
  rewrite (map_ext_in _ (fun u => p u (nth (u - S s) x 0%Z))).
  - rewrite E. reflexivity.
  - intros u Hu. apply in_seq in Hu. replace (u - s)%nat with (S (u - S s)) by lia. reflexivity.
Qed.
Lemma indO_all {B} (b : B -> bool) l : bigmul addO (Some 0) (map (fun c => ind None (Some 0) (b c)) l) = ind None (Some 0) (forallb b l).
Proof. induction l as [|c l IH]; [reflexivity|]. cbn [map bigmul fold_right forallb]. unfold bigmul in IH. rewrite IH. destruct (b c), (forallb b l); cbn [ind andb addO]; try reflexivity. f_equal. lra. Qed.
Lemma minO_least {B} (f : B -> option R) l c : bigadd minO None (map f l) = Some c -> (exists x, In x l /\ f x = Some c) /\ forall x y, In x l -> f x = Some y -> c <= y.
Proof.
  revert c. induction l as [|x l IH]; intros c E; cbn [map bigadd fold_right] in E; [discriminate|]. fold (bigadd minO None (map f l)) in E.
  destruct (f x) as [a|] eqn:Ex, (bigadd minO None (map f l)) as [d|] eqn:Ed; cbn [minO] in E; inversion E; subst.
  - destruct (IH d eq_refl) as ((z & Hz & Ez) & Hm). split.
    + destruct (Rle_dec a d); [exists x; rewrite Rmin_left by lra; split; [left; reflexivity|exact Ex]|exists z; rewrite Rmin_right by lra; split; [right; exact Hz|exact Ez]].
    + intros y w [<-|Hy] Ey; [rewrite Ex in Ey; inversion Ey; subst; apply Rmin_l|]. eapply Rle_trans; [apply Rmin_r|]. eapply Hm; eassumption.
  - split; [exists x; split; [left; reflexivity|exact Ex]|]. intros y w [<-|Hy] Ey; [rewrite Ex in Ey; inversion Ey; lra|]. exfalso. clear - Ed Hy Ey. induction l as [|z l IH]; [destruct Hy|]. cbn [map bigadd fold_right] in Ed. destruct Hy as [->|Hy].
    + rewrite Ey in Ed. destruct (fold_right minO None (map f l)); discriminate.
    + apply IH; [|exact Hy]. destruct (f z), (fold_right minO None (map f l)) eqn:F; cbn in Ed; try discriminate. exact F.
  - destruct (IH c eq_refl) as ((z & Hz & Ez) & Hm). split; [exists z; split; [right; exact Hz|exact Ez]|]. intros y w [<-|Hy] Ey; [congruence|]. eapply Hm; eassumption.
Qed.

Lemma msa_exact H (llr : list R) T v : binary H -> length llr = a_cols H -> (forall c, (c < length (a_rows H))%nat -> (2 <= length (vars_of H c))%nat) -> tree H T -> (v < a_cols H)%nat ->
  exists c0 c1, least_cost llr (codewords H v 0) c0 /\ least_cost llr (codewords H v 1) c1 /\ belief H msa_rule (fun u => nth u llr 0) (S T) v = c1 - c0.
Proof.
  intros HB Hl deg2 HT Hv. destruct (HT v Hv) as [PV PC].
  pose proof (root_good minO addO None (Some 0) goodO H msa_rule (fun u => nth u llr 0) (fun u b => Some (IZR b * nth u llr 0))
    ltac:(intros w; eexists _, _; split; [reflexivity|]; split; [reflexivity|lra]) ltac:(eexists _, _; split; [reflexivity|]; split; [reflexivity|lra])) as RG.
  specialize (RG ltac:(intros x0 x1 q y0 y1 q' (a & b & -> & -> & ->) (c & d & -> & -> & ->); eexists _, _; split; [reflexivity|]; split; [reflexivity|lra])).
  specialize (RG conv_goodO deg2 T v Hv).
  assert (TS : forall b c, is_bit b -> root minO addO None (Some 0) (vars_of H) (checks_of H) (fun u b => Some (IZR b * nth u llr 0)) T v b = Some c -> least_cost llr (codewords H v b) c).
  { intros b c Hb. rewrite <- (tree_sum minO addO None (Some 0)) with (n := a_cols H) (m := length (a_rows H)); try assumption;
      try apply minO_comm; try apply minO_assoc; try apply minO_0; try apply addO_comm; try apply addO_assoc; try apply addO_1; try apply addO_0; try apply addO_distr.
    - intros E. apply minO_least in E.
      assert (W : forall x, In x (all_bits (a_cols H)) -> addO (ind None (Some 0) (nth v x 0 =? b)%Z) (whole addO None (Some 0) (vars_of H) (fun u b => Some (IZR b * nth u llr 0)) (a_cols H) (length (a_rows H)) (fun i => nth i x 0%Z)) =
        if (forallb (fun i => sumto (a_cols H) (fun j => (hij (a_rows H) i j * nth j x 0)%Z) mod 2 =? 0)%Z (seq 0 (length (a_rows H))) && (nth v x 0 =? b)%Z)%bool then Some (cost llr x) else None).
      { intros x Hx. apply all_bits_in in Hx. destruct Hx as [Hx _]. unfold whole.
        rewrite (map_ext_in (fun c => ind None (Some 0) (even (vars_of H c) (fun i => nth i x 0%Z))) (fun c => ind None (Some 0) (sumto (a_cols H) (fun j => (hij (a_rows H) c j * nth j x 0)%Z) mod 2 =? 0)%Z)) by (intros d Hd; apply in_seq in Hd; rewrite even_ok by (try assumption; lia); reflexivity).
        rewrite indO_all. rewrite <- Hl.
        rewrite (map_ext (fun u => Some (IZR (nth u x 0%Z) * nth u llr 0)) (fun u => (fun u b => Some (IZR b * nth u llr 0)) u (nth (u - 0) x 0%Z))) by (intros u; rewrite Nat.sub_0_r; reflexivity).
        rewrite (cost_sum llr x 0 (fun u b => Some (IZR b * nth u llr 0))) by (try lia; reflexivity).
        destruct (forallb _ _), (_ =? b)%Z; cbn [andb ind addO]; try reflexivity. f_equal. lra. }
      destruct E as ((x & Hx & Ex) & Hm). split.
      + exists x. rewrite (W x Hx) in Ex. unfold codewords. rewrite filter_In. destruct (forallb _ _ && _)%bool; [|discriminate]. inversion Ex. split; [split; [exact Hx|reflexivity]|reflexivity].
      + intros y Hy. unfold codewords in Hy. apply filter_In in Hy. destruct Hy as [Hy Py]. apply (Hm y _ Hy). rewrite (W y Hy). rewrite Py. reflexivity.
    - intros d w Hd. apply sym_edges; assumption.
    - apply vars_NoDup. }
  destruct RG as (c0 & c1 & R0 & R1 & E). exists c0, c1. split; [apply TS; [left; reflexivity|exact R0]|]. split; [apply TS; [right; reflexivity|exact R1]|exact E].
Qed.
