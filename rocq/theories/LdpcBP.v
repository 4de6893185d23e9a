(* The decoder computes textbook belief propagation. *)
From Coq Require Import Reals Lra.
From Verif Require Import Base TurboSpec TurboMap LdpcModel LdpcSpec LdpcProofs LdpcFile LdpcDecModel LdpcDecProofs LdpcBPSpec.
Open Scope R_scope.
Notation nth := List.nth.
Notation length := List.length.

(* ---------------------------------------------------------------- the tanh rule *)
Lemma exp1_pos l : 0 < 1 + exp l. Proof. pose proof (exp_pos l). lra. Qed.
Lemma prob_sum l : prob l 0 + prob l 1 = 1.
Proof. unfold prob. cbn [Z.eqb]. pose proof (exp1_pos l). field. lra. Qed.
Lemma prob_pos l b : 0 < prob l b.
Proof. unfold prob. pose proof (exp_pos l). pose proof (exp1_pos l). destruct (b =? 0)%Z; apply Rdiv_lt_0_compat; lra. Qed.
Lemma tanh_half l : tanh (l * / 2) = prob l 0 - prob l 1.
Proof.
  unfold tanh, sinh, cosh, prob. cbn [Z.eqb]. pose proof (exp_pos (l * / 2)) as Hp. pose proof (exp1_pos l) as Hq. rewrite exp_Ropp.
  assert (E : exp l = exp (l * / 2) * exp (l * / 2)) by (rewrite <- exp_plus; f_equal; lra). rewrite E in *. set (e := exp (l * / 2)) in *. field. split; [lra|]. nra.
Qed.

Lemma parity_cons l ls b : is_bit b -> parity_prob (l :: ls) b = prob l 0 * parity_prob ls b + prob l 1 * parity_prob ls (1 - b).
Proof.
  intros Hb. unfold parity_prob. cbn [length all_bits]. rewrite filter_app, total_app.
  assert (G : forall x l0, total (weight (l :: ls)) (filter (fun y => (Zsum y mod 2 =? b)%Z) (map (cons x) l0)) = prob l x * total (weight ls) (filter (fun y => ((x + Zsum y) mod 2 =? b)%Z) l0)).
  { intros x l0. induction l0 as [|y l0 IH]; [cbn; lra|]. cbn [map filter]. rewrite Zsum_cons. destruct ((x + Zsum y) mod 2 =? b)%Z; [rewrite !total_cons, IH; cbn [weight]; ring|exact IH]. }
  rewrite !G. f_equal; f_equal; f_equal.
  apply filter_ext. intros y. destruct Hb as [-> | ->]; apply Bool.eq_iff_eq_true; rewrite !Z.eqb_eq; dlia.
Qed.
Lemma parity_facts ls : parity_prob ls 0 + parity_prob ls 1 = 1 /\ parity_prob ls 0 - parity_prob ls 1 = prodR (map (fun l => tanh (l * / 2)) ls) /\ 0 < parity_prob ls 0 /\ 0 <= parity_prob ls 1 /\ (ls <> [] -> 0 < parity_prob ls 1).
Proof.
  induction ls as [|l ls (H1 & H2 & H3 & H4 & _)].
  - unfold parity_prob. cbn. repeat split; try lra. intros Hc. congruence.
  - rewrite (parity_cons l ls 0) by (left; reflexivity). rewrite (parity_cons l ls 1) by (right; reflexivity). change (1 - 0)%Z with 1%Z. change (1 - 1)%Z with 0%Z. cbn [map prodR fold_right]. fold (prodR (map (fun l => tanh (l * / 2)) ls)). rewrite <- H2, tanh_half.
    pose proof (prob_sum l) as Hs. pose proof (prob_pos l 0) as P0. pose proof (prob_pos l 1) as P1. set (p0 := prob l 0) in *. set (p1 := prob l 1) in *. set (a := parity_prob ls 0) in *. set (b := parity_prob ls 1) in *.
    assert (0 < p0 * a) by (apply Rmult_lt_0_compat; assumption). assert (0 < p1 * a) by (apply Rmult_lt_0_compat; assumption).
    assert (0 <= p0 * b) by (apply Rmult_le_pos; lra). assert (0 <= p1 * b) by (apply Rmult_le_pos; lra).
    repeat split; try lra. replace (p0 * a + p1 * b + (p0 * b + p1 * a)) with ((p0 + p1) * (a + b)) by ring. rewrite Hs, H1. ring.
Qed.

Lemma clip500_id_big : clip500 (1000 * 2) = 500.
Proof. unfold clip500. rewrite Rmin_left, Rmax_right by lra. reflexivity. Qed.
Lemma spa_rule_tanh ls : clip500 (atanhR (Rmax (-1) (Rmin 1 (prodR (map (fun l => tanh (l * / 2)) ls)))) * 2) = spa_rule ls.
Proof.
  destruct (parity_facts ls) as (H1 & H2 & H3 & _ & H5). rewrite <- H2. destruct ls as [|l ls].
  - unfold parity_prob. cbn. unfold atanhR. rewrite Rmin_left by lra. rewrite Rmax_right by lra. destruct (Rlt_dec 1 1); [lra|]. apply clip500_id_big.
  - specialize (H5 ltac:(discriminate)). unfold spa_rule. set (a := parity_prob (l :: ls) 0) in *. set (b := parity_prob (l :: ls) 1) in *. rewrite Rmin_right by lra. rewrite Rmax_right by lra. unfold atanhR.
    destruct (Rlt_dec (a - b) 1) as [_|Hn]; [|exfalso; apply Hn; lra]. destruct (Rlt_dec (-1) (a - b)) as [_|Hn]; [|exfalso; apply Hn; lra].
    f_equal. rewrite Rmult_comm, <- Rmult_assoc. rewrite Rinv_r, Rmult_1_l by lra. f_equal. replace (1 + (a - b)) with (2 * a) by lra. replace (1 - (a - b)) with (2 * b) by lra. field. lra.
Qed.

(* ---------------------------------------------------------------- rows *)
Lemma prodR_remove l j : (j < length l)%nat -> nth j l 0 <> 0 -> / nth j l 0 * prodR l = prodR (firstn j l ++ skipn (j + 1) l).
Proof.
  revert j. induction l as [|x l IH]; intros [|j] Hj Hne; cbn [length] in Hj; try lia.
  - cbn [nth firstn app skipn prodR fold_right Nat.add] in *. fold (prodR l). rewrite <- Rmult_assoc, Rinv_l by exact Hne. lra.
  - cbn [nth firstn app Nat.add skipn] in *. cbn [prodR fold_right]. fold (prodR l) (prodR (firstn j l ++ skipn (j + 1) l)). rewrite <- IH by (try lia; exact Hne). ring.
Qed.
Lemma tanh_nonzero x : x <> 0 -> tanh (x * / 2) <> 0.
Proof.
  intros Hx E. rewrite tanh_half in E. unfold prob in E. cbn [Z.eqb] in E. pose proof (exp1_pos x). assert (E2 : exp x = 1).
  { apply (Rmult_eq_compat_r (1 + exp x)) in E. field_simplify in E; [lra|lra]. } apply Hx. apply exp_inv. rewrite exp_0. exact E2.
Qed.
Lemma others_map {A} (q : A -> R) l j : others real_ops (map q l) j = map q (firstn j l ++ skipn (j + 1) l).
Proof. unfold others. rewrite map_app, firstn_map, skipn_map. reflexivity. Qed.

Lemma spa_row_ok (row : list R) : Forall (fun x => x <> 0) row -> spa_row real_ops row = map (fun j => spa_rule (firstn j row ++ skipn (j + 1) row)) (seq 0 (length row)).
Proof.
  intros Hne. unfold spa_row. cbn [real_ops n_tanh n_half n_prod n_inv n_mul n_clip1 n_atanh n_double n_clip num]. rewrite map_map.
  apply (nth_ext _ _ 0 0); [rewrite !map_length, seq_length; reflexivity|]. intros j Hj. rewrite map_length in Hj.
  rewrite (nth_map_lt _ row j 0) by exact Hj. rewrite (nth_map_seq (fun j => spa_rule (firstn j row ++ skipn (j + 1) row))) by exact Hj. rewrite <- spa_rule_tanh. do 5 f_equal.
  set (t := map (fun x => tanh (x * / 2)) row). replace (tanh (nth j row 0 * / 2)) with (nth j t 0) by (unfold t; apply (nth_map_lt (fun x => tanh (x * / 2)) row j 0 0 Hj)).
  rewrite prodR_remove; [|unfold t; rewrite map_length; exact Hj|].
  - unfold t. rewrite map_app, firstn_map, skipn_map. reflexivity.
  - unfold t. rewrite (nth_map_lt (fun x => tanh (x * / 2)) row j 0 0 Hj). apply tanh_nonzero. rewrite Forall_forall in Hne. apply Hne, nth_In, Hj.
Qed.
Lemma msa_row_ok (row : list R) : (2 <= length row)%nat -> msa_row real_ops row = Ok (map (fun j => msa_rule (firstn j row ++ skipn (j + 1) row)) (seq 0 (length row))).
Proof.
  intros Hl.
  assert (G : forall ot : list R, ot <> [] -> (m <- list_min real_ops (map (n_abs real_ops) ot) ;; Ok (n_mul real_ops (n_prod_sign real_ops (map (n_sign real_ops) ot)) m)) = Ok (msa_rule ot)) by (intros [|x l] Ho; [congruence|reflexivity]).
  unfold msa_row. apply mapM_Ok. intros j Hj. apply in_seq in Hj. apply G. intros E. apply (f_equal (@length R)) in E. rewrite app_length, firstn_length, skipn_length in E. cbn in E. lia.
Qed.

Lemma remove_nth l j : NoDup l -> (j < length l)%nat -> firstn j l ++ skipn (j + 1) l = filter (fun w => negb (w =? nth j l 0)%nat) l.
Proof.
  intros HN. revert j. induction HN as [|x l Hx HN IH]; intros [|j] Hj; cbn [length] in Hj; try lia.
  - cbn [firstn app skipn Nat.add nth filter]. rewrite Nat.eqb_refl. cbn [negb]. symmetry.
    assert (E : forall l0, ~ In x l0 -> filter (fun w => negb (w =? x)%nat) l0 = l0).
    { clear. induction l0 as [|y l0 IH]; intros Hn; [reflexivity|]. cbn [filter]. replace (y =? x)%nat with false by (symmetry; apply Nat.eqb_neq; intros ->; apply Hn; left; reflexivity). cbn [negb]. f_equal. apply IH. intros Hi. apply Hn. right. exact Hi. }
    apply E. exact Hx.
  - cbn [Nat.add firstn app skipn nth filter]. rewrite IH by lia. replace (x =? nth j l 0)%nat with false; [reflexivity|]. symmetry. apply Nat.eqb_neq. intros ->. apply Hx, nth_In. lia.
Qed.

(* ---------------------------------------------------------------- the iterations *)
Section Run.
  Variables (H : arr2) (HB : binary H).
  Local Notation n := (a_cols H).
  Local Notation m := (length (a_rows H)).

  Lemma vars_nonzero c : (c < m)%nat -> nonzero (nth c (a_rows H) []) = vars_of H c.
  Proof.
    intros Hc. unfold nonzero, vars_of. rewrite (row_len H HB c Hc). apply filter_ext. intros v. fold (hij (a_rows H) c v). destruct (entry_bit H HB c v) as [E|E]; rewrite E; reflexivity.
  Qed.
  Lemma rows_seq {A} (f : list Z -> A) : map f (a_rows H) = map (fun c => f (nth c (a_rows H) [])) (seq 0 m).
  Proof.
    destruct (a_rows H) as [|r0 rs] eqn:E; [reflexivity|]. rewrite <- E. apply (nth_ext _ _ (f []) (f [])); [rewrite !map_length, seq_length; reflexivity|]. intros i Hi. rewrite map_length in Hi.
    rewrite (nth_map_lt f (a_rows H) i []) by exact Hi. symmetry. apply (nth_map_seq (fun c => f (nth c (a_rows H) []))). exact Hi.
  Qed.
  Lemma vars_NoDup c : NoDup (vars_of H c). Proof. apply NoDup_filter, seq_NoDup. Qed.
  Lemma vars_lt c v : In v (vars_of H c) -> (v < n)%nat.
  Proof. intros Hv. apply filter_In in Hv. destruct Hv as [Hv _]. apply in_seq in Hv. lia. Qed.

  (* messages indexed by edges *)
  Definition edge (g : nat -> nat -> R) : list (list R) := map (fun c => map (g c) (vars_of H c)) (seq 0 m).

  Lemma spread_edge (llr : list R) : spread real_ops H llr = edge (fun _ v => nth v llr 0).
  Proof. unfold spread, edge. rewrite rows_seq. apply map_ext_in. intros c Hc. apply in_seq in Hc. rewrite vars_nonzero by lia. reflexivity. Qed.

  Lemma combine_edge g : combine (a_rows H) (edge g) = map (fun c => (nth c (a_rows H) [], map (g c) (vars_of H c))) (seq 0 m).
  Proof.
    unfold edge. rewrite <- (map_id (a_rows H)) at 1. rewrite (rows_seq (fun r => r)). generalize (seq 0 m). intros l. induction l as [|c l IH]; [reflexivity|]. cbn [map combine]. rewrite IH. reflexivity.
  Qed.
  Lemma column_edge g j : (j < n)%nat -> column_messages real_ops H (edge g) j = map (fun c => g c j) (checks_of H j).
  Proof.
    intros Hj. unfold column_messages. rewrite combine_edge.
    assert (G : forall l, (forall c, In c l -> (c < m)%nat) -> flat_map (fun p : list Z * list R => let '(r, ms) := p in map snd (filter (fun q => (fst q =? j)%nat) (combine (nonzero r) ms))) (map (fun c => (nth c (a_rows H) [], map (g c) (vars_of H c))) l) = map (fun c => g c j) (filter (fun c => (hij (a_rows H) c j =? 1)%Z) l)).
    { induction l as [|c l IH]; intros Hl; [reflexivity|]. cbn [map flat_map filter]. rewrite IH by (intros c' Hc'; apply Hl; right; exact Hc'). rewrite vars_nonzero by (apply Hl; left; reflexivity).
      assert (E : forall vs, NoDup vs -> map snd (filter (fun q : nat * R => (fst q =? j)%nat) (combine vs (map (g c) vs))) = if existsb (Nat.eqb j) vs then [g c j] else []).
      { clear. intros vs HN0. induction HN0 as [|v vs Hv HN IH]; [reflexivity|]. cbn [map combine filter fst existsb]. rewrite (Nat.eqb_sym j v). destruct (Nat.eqb_spec v j) as [-> |Hne]; cbn [map snd orb]; [|exact IH].
        rewrite IH. assert (Hf : existsb (Nat.eqb j) vs = false); [|rewrite Hf; reflexivity]. apply Bool.not_true_is_false. intros Ht. apply existsb_exists in Ht. destruct Ht as (x & Hx & Ex). apply Nat.eqb_eq in Ex. subst x. contradiction. }
      rewrite E by apply vars_NoDup. replace (existsb (Nat.eqb j) (vars_of H c)) with (hij (a_rows H) c j =? 1)%Z.
      - destruct (hij (a_rows H) c j =? 1)%Z; reflexivity.
      - apply Bool.eq_iff_eq_true. rewrite existsb_exists. split.
        + intros Ht. exists j. split; [|apply Nat.eqb_refl]. apply filter_In. split; [apply in_seq; lia|exact Ht].
        + intros (x & Hx & Ex). apply Nat.eqb_eq in Ex. subst x. apply filter_In in Hx. apply Hx. }
    apply G. intros c Hc. apply in_seq in Hc. lia.
  Qed.
  Lemma edge_ext f g : (forall c v, (c < m)%nat -> In v (vars_of H c) -> f c v = g c v) -> edge f = edge g.
  Proof. intros E. unfold edge. apply map_ext_in. intros c Hc. apply in_seq in Hc. apply map_ext_in. intros v Hv. apply E; [lia|exact Hv]. Qed.

  Lemma edge_rule rule (q : nat -> nat -> R) c : map (fun j => rule (firstn j (map (q c) (vars_of H c)) ++ skipn (j + 1) (map (q c) (vars_of H c)))) (seq 0 (length (map (q c) (vars_of H c)))) = map (to_var H rule q c) (vars_of H c).
  Proof.
    apply (nth_ext _ _ 0 0); [rewrite !map_length, seq_length; reflexivity|]. intros j Hj. rewrite !map_length, seq_length in Hj. rewrite map_length.
    rewrite (nth_map_seq (fun j => rule (firstn j (map (q c) (vars_of H c)) ++ skipn (j + 1) (map (q c) (vars_of H c))))) by exact Hj. rewrite (nth_map_lt (to_var H rule q c) _ j 0%nat) by exact Hj.
    unfold to_var. f_equal. rewrite firstn_map, skipn_map, <- map_app. f_equal. apply remove_nth; [apply vars_NoDup|exact Hj].
  Qed.

  Lemma check_spa q : (forall c v, (c < m)%nat -> In v (vars_of H c) -> q c v <> 0) -> check_update real_ops SPA (edge q) = Ok (edge (to_var H spa_rule q)).
  Proof.
    intros Hne. cbn [check_update]. f_equal. unfold edge at 1. rewrite map_map. apply map_ext_in. intros c Hc. apply in_seq in Hc. rewrite spa_row_ok.
    - apply edge_rule.
    - apply Forall_map, Forall_forall. intros v Hv. apply Hne; [lia|exact Hv].
  Qed.
  Lemma check_msa q : (forall c, (c < m)%nat -> (2 <= length (vars_of H c))%nat) -> check_update real_ops MSA (edge q) = Ok (edge (to_var H msa_rule q)).
  Proof.
    intros Hd. cbn [check_update]. unfold edge.
    assert (G : forall l, (forall c, In c l -> (c < m)%nat) -> mapM (msa_row real_ops) (map (fun c => map (q c) (vars_of H c)) l) = Ok (map (fun c => map (to_var H msa_rule q c) (vars_of H c)) l)).
    { induction l as [|c l IH]; intros Hl; [reflexivity|]. cbn [map mapM]. rewrite msa_row_ok by (rewrite map_length; apply Hd, Hl; left; reflexivity). cbn [bind]. rewrite IH by (intros c' Hc'; apply Hl; right; exact Hc'). cbn [bind]. rewrite edge_rule. reflexivity. }
    apply G. intros c Hc. apply in_seq in Hc. lia.
  Qed.

  Section Alg.
    Variables (a : algorithm) (rule : list R -> R) (llr : list R) (N : nat).
    Hypothesis Hlen : length llr = n.
    Local Notation L := (fun v => nth v llr 0).
    Hypothesis Hupd : forall t, (t < N)%nat -> check_update real_ops a (edge (to_check H rule L t)) = Ok (edge (to_var H rule (to_check H rule L t))).

    Lemma hard_length t : length (hard H rule L t) = n. Proof. unfold hard. apply map_seq_length. Qed.

    Lemma iterate_bp : forall k t out, (t + k = N)%nat -> out = map (belief H rule L t) (seq 0 n) -> exists T, (t <= T <= N)%nat /\
      iterate real_ops H a llr k (edge (to_check H rule L t)) (hard H rule L t) out = Ok (hard H rule L T, map (belief H rule L T) (seq 0 n)) /\
      (forall u, (t <= u < T)%nat -> ~ satisfies H (word (hard H rule L u))) /\ (T = N \/ satisfies H (word (hard H rule L T))).
    Proof.
      induction k as [|k IH]; intros t out Hk Ho; cbn [iterate].
      - exists t. split; [lia|]. split; [rewrite Ho; reflexivity|]. split; [intros u Hu; lia|left; lia].
      - destruct (checks H (hard H rule L t)) eqn:Hc.
        + exists t. split; [lia|]. split; [rewrite Ho; reflexivity|]. split; [intros u Hu; lia|right; apply checks_ok; assumption].
        + rewrite Hupd by lia. cbn [bind]. set (q := to_check H rule L t).
          set (post := map (fun j => n_add real_ops (n_sum real_ops (column_messages real_ops H (edge (to_var H rule q)) j)) (nth j llr (n_zero real_ops))) (seq 0 n)).
          assert (Ep : post = map (belief H rule L (S t)) (seq 0 n)).
          { unfold post. apply map_ext_in. intros j Hj. apply in_seq in Hj. rewrite column_edge by lia. cbn [real_ops n_add n_sum n_zero num belief]. unfold posterior, total. fold q. apply Rplus_comm. }
          destruct (IH (S t) post ltac:(lia) Ep) as (T & HT & E & HU & HE). exists T. split; [lia|]. split; [|split; [|exact HE]].
          * rewrite <- E. f_equal.
            -- rewrite combine_edge, map_map. unfold edge. apply map_ext_in. intros c Hc'. apply in_seq in Hc'. rewrite vars_nonzero by lia.
               assert (G : forall vs, (forall v, In v vs -> (v < n)%nat) -> map (fun p : nat * R => n_add real_ops (n_neg real_ops (snd p)) (nth (fst p) post (n_zero real_ops))) (combine vs (map (to_var H rule q c) vs)) = map (to_check H rule L (S t) c) vs).
               { induction vs as [|v vs IHv]; intros Hv; [reflexivity|]. cbn [map combine]. rewrite IHv by (intros w Hw; apply Hv; right; exact Hw). f_equal. cbn [fst snd real_ops n_add n_neg n_zero num to_check]. rewrite Ep.
                 rewrite (nth_map_seq (belief H rule L (S t))) by (apply Hv; left; reflexivity). cbn [belief]. fold q. lra. }
               apply G. apply vars_lt.
            -- transitivity (map negative post); [reflexivity|]. rewrite Ep, map_map. reflexivity.
          * intros u Hu. destruct (Nat.eq_dec u t) as [-> |Hne]; [|apply HU; lia]. rewrite <- checks_ok by exact HB. rewrite Hc. discriminate.
    Qed.

    Lemma decode_block_bp : exists T, (T <= N)%nat /\ decode_block real_ops H a N llr = Ok (hard H rule L T, map (belief H rule L T) (seq 0 n)) /\
      (forall u, (u < T)%nat -> ~ satisfies H (word (hard H rule L u))) /\ (T = N \/ satisfies H (word (hard H rule L T))).
    Proof.
      assert (E0 : llr = map (belief H rule L 0) (seq 0 n)) by (apply (nth_ext _ _ 0 0); [rewrite map_seq_length; exact Hlen|]; intros i Hi; rewrite (nth_map_seq (belief H rule L 0)) by lia; reflexivity).
      destruct (iterate_bp N 0%nat llr ltac:(lia) E0) as (T & HT & E & HU & HE). exists T. split; [lia|]. split; [|split; [intros u Hu; apply HU; lia|exact HE]].
      unfold decode_block. rewrite spread_edge. cbn [to_check] in E. rewrite <- E. f_equal. unfold hard. rewrite E0 at 1. rewrite map_map. reflexivity.
    Qed.
  End Alg.
End Run.
