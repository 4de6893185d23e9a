(* Error and erasure correction guarantees of the min-sum decoder. *)
From Coq Require Import Reals Lra.
From Verif Require Import Base TurboSpec TurboMap LdpcModel LdpcSpec LdpcProofs LdpcDecModel LdpcDecProofs LdpcBPSpec LdpcTreeSpec LdpcBP LdpcTree LdpcSym.
Open Scope R_scope.
Notation nth := List.nth.
Notation length := List.length.

Lemma msa_nonneg (l : list R) : Forall (fun x => 0 <= x) l -> 0 <= msa_rule l.
Proof.
  destruct l as [|x l]; [intros _; unfold msa_rule; cbn; lra|]. revert x. induction l as [|y l IH]; intros x HF.
  - rewrite msa_one. inversion HF; assumption.
  - rewrite msa_cons. inversion HF as [|? ? Hx HF']; subst. specialize (IH y HF'). unfold join. destruct (signR_cases x) as [(?&->&_)|[(?&_)|(->&->&_)]]; [|lra|rewrite !Rmult_0_l; lra].
    destruct (signR_cases (msa_rule (y :: l))) as [(?&->&_)|[(?&_)|(?&->&_)]]; [|lra|]; rewrite ?Rmult_0_r, ?Rmult_0_l; try lra.
    rewrite !Rmult_1_l. unfold Rmin. destruct (Rle_dec _ _); apply Rabs_pos.
Qed.
Lemma msa_pos (l : list R) : l <> [] -> Forall (fun x => 0 < x) l -> 0 < msa_rule l.
Proof.
  destruct l as [|x l]; [congruence|]. intros _. revert x. induction l as [|y l IH]; intros x HF.
  - rewrite msa_one. inversion HF; assumption.
  - rewrite msa_cons. inversion HF as [|? ? Hx HF']; subst. specialize (IH y HF'). unfold join. destruct (signR_cases x) as [(_&->&->)|[(?&_)|(?&_)]]; [|lra|lra].
    destruct (signR_cases (msa_rule (y :: l))) as [(?&->&->)|[(?&_)|(?&_)]]; [|lra|lra]. rewrite !Rmult_1_l. apply Rmin_glb_lt; assumption.
Qed.
Lemma msa_pos_inv (l : list R) : Forall (fun x => 0 <= x) l -> 0 < msa_rule l -> Forall (fun x => 0 < x) l.
Proof.
  intros HF HP. destruct (Forall_Exists_dec (fun x => 0 < x) (fun x => Rlt_dec 0 x) l) as [H|H]; [exact H|exfalso]. rewrite Forall_forall in HF. apply Exists_exists in H. destruct H as (x & Hx & Hn).
  assert (x = 0) by (specialize (HF x Hx); lra). subst x. unfold msa_rule in HP. assert (E : prodR (map signR l) = 0); [|rewrite E in HP; lra].
  clear - Hx. induction l as [|y l IH]; [destruct Hx|]. cbn [map prodR fold_right]. destruct Hx as [->|Hx].
  - destruct (signR_cases 0) as [(?&_)|[(?&_)|(_&->&_)]]; lra.
  - unfold prodR in IH. rewrite (IH Hx). lra.
Qed.

Lemma total_pos_iff (f : nat -> R) l : (forall c, In c l -> 0 <= f c) -> 0 <= total f l /\ (0 < total f l <-> exists c, In c l /\ 0 < f c).
Proof.
  induction l as [|c l IH]; intros HF; [split; [rewrite total_nil; lra|]; rewrite total_nil; split; [lra|]; intros (c & [] & _)|].
  destruct (IH (fun d Hd => HF d (or_intror Hd))) as [IH1 IH2]. pose proof (HF c (or_introl eq_refl)) as H0. rewrite total_cons. split; [lra|]. split.
  - intros HP. destruct (Rlt_dec 0 (f c)) as [Hc|Hc]; [exists c; split; [left; reflexivity|exact Hc]|]. destruct (proj1 IH2 ltac:(lra)) as (d & Hd & Hf). exists d. split; [right; exact Hd|exact Hf].
  - intros (d & [->|Hd] & Hf); [lra|]. pose proof (proj2 IH2 (ex_intro _ d (conj Hd Hf))). lra.
Qed.
Lemma total_without (f : nat -> R) l c : NoDup l -> In c l -> total f l = f c + total f (filter (fun w => negb (w =? c)%nat) l).
Proof.
  intros HN. induction HN as [|y l Hy HN IH]; intros Hv; [destruct Hv|]. cbn [filter]. rewrite total_cons. destruct (Nat.eqb_spec y c) as [->|Hne]; cbn [negb].
  - f_equal. cut (filter (fun w => negb (w =? c)%nat) l = l); [intros ->; reflexivity|]. clear - Hy. induction l as [|z l IH]; [reflexivity|]. cbn [filter]. destruct (Nat.eqb_spec z c) as [->|]; cbn [negb]; [exfalso; apply Hy; left; reflexivity|]. f_equal. apply IH. intros Hi. apply Hy. right. exact Hi.
  - destruct Hv as [->|Hv]; [contradiction|]. rewrite total_cons, IH by exact Hv. ring.
Qed.

Lemma checks_in H c v : In c (checks_of H v) -> (v < a_cols H)%nat -> (c < length (a_rows H))%nat /\ In v (vars_of H c).
Proof. unfold checks_of, vars_of. rewrite !filter_In, !in_seq. intros [Hi He] Hv. split; [lia|]. split; [lia|exact He]. Qed.

Lemma edge_sym H c v : (c < length (a_rows H))%nat -> In v (vars_of H c) -> In c (checks_of H v).
Proof. unfold checks_of, vars_of. rewrite !filter_In, !in_seq. intros Hc [Hi He]. split; [lia|exact He]. Qed.
Lemma checks_NoDup H v : NoDup (checks_of H v). Proof. apply NoDup_filter, seq_NoDup. Qed.
Lemma others_ne H (deg2 : forall c, (c < length (a_rows H))%nat -> (2 <= length (vars_of H c))%nat) c v : (c < length (a_rows H))%nat -> In v (vars_of H c) -> filter (fun w => negb (w =? v)%nat) (vars_of H c) <> [].
Proof.
    intros Hc Hv E. specialize (deg2 c Hc). pose proof (vars_NoDup H c) as HN. destruct (vars_of H c) as [|a [|b l]]; cbn [length] in deg2; try lia.
    assert (HX : forall w, In w (a :: b :: l) -> w = v).
    { intros w Hw. destruct (Nat.eq_dec w v) as [|Hne]; [assumption|exfalso]. assert (Hi : In w (filter (fun w => negb (w =? v)%nat) (a :: b :: l))) by (apply filter_In; split; [exact Hw|]; apply Nat.eqb_neq in Hne; rewrite Hne; reflexivity). rewrite E in Hi. destruct Hi. }
    pose proof (HX a ltac:(left; reflexivity)). pose proof (HX b ltac:(right; left; reflexivity)). subst. inversion HN as [|? ? Hn _]. apply Hn. left. reflexivity.
Qed.

Section Erase.
  Variables (H : arr2) (L : nat -> R).
  Hypothesis deg2 : forall c, (c < length (a_rows H))%nat -> (2 <= length (vars_of H c))%nat.
  Hypothesis HL : forall v, 0 <= L v.
  Local Notation m := (length (a_rows H)).
  Local Notation mu t := (to_check H msa_rule L t).
  Local Notation nu t := (to_var H msa_rule (mu t)).

  Lemma to_check_S t c v : In c (checks_of H v) -> mu (S t) c v = L v + total (fun c' => nu t c' v) (filter (fun w => negb (w =? c)%nat) (checks_of H v)).
  Proof. intros Hc. cbn [to_check]. unfold posterior. rewrite (total_without _ _ c (checks_NoDup H v) Hc). lra. Qed.

  Lemma nu_facts_of t : (forall c v, (c < m)%nat -> In v (vars_of H c) -> 0 <= mu t c v) ->
    forall c v, (c < m)%nat -> In v (vars_of H c) -> 0 <= nu t c v /\ (0 < nu t c v <-> forall w, In w (vars_of H c) -> w <> v -> 0 < mu t c w).
  Proof.
    intros HM c v Hc Hv. unfold to_var. assert (HF : Forall (fun x => 0 <= x) (map (mu t c) (filter (fun w => negb (w =? v)%nat) (vars_of H c)))).
    { apply Forall_map, Forall_forall. intros w Hw. apply filter_In in Hw. apply HM; tauto. }
    split; [apply msa_nonneg; exact HF|]. split.
    - intros HP w Hw Hne. pose proof (msa_pos_inv _ HF HP) as HQ. rewrite Forall_map, Forall_forall in HQ. apply HQ. apply filter_In. split; [exact Hw|]. apply Nat.eqb_neq in Hne. rewrite Hne. reflexivity.
    - intros HA. apply msa_pos; [intros E; apply map_eq_nil in E; exact (others_ne H deg2 c v Hc Hv E)|]. apply Forall_map, Forall_forall. intros w Hw. apply filter_In in Hw. destruct Hw as [Hw Hb]. apply HA; [exact Hw|]. intros ->. rewrite Nat.eqb_refl in Hb. discriminate.
  Qed.
  Lemma mu_nonneg t : forall c v, (c < m)%nat -> In v (vars_of H c) -> 0 <= mu t c v.
  Proof.
    induction t as [|t IH]; intros c v Hc Hv; [apply HL|]. rewrite to_check_S by (apply edge_sym; assumption). pose proof (HL v). apply Rplus_le_le_0_compat; [exact (HL v)|]. apply total_pos_iff. intros d Hd. apply filter_In in Hd. destruct Hd as [Hd _].
    destruct (checks_in H d v Hd (vars_lt H c v Hv)) as [Hd1 Hd2]. apply (nu_facts_of t IH d v Hd1 Hd2).
  Qed.
  Lemma nu_pos t c v : (c < m)%nat -> In v (vars_of H c) -> (0 < nu t c v <-> forall w, In w (vars_of H c) -> w <> v -> 0 < mu t c w).
  Proof. intros Hc Hv. apply (nu_facts_of t (mu_nonneg t) c v Hc Hv). Qed.
  Lemma nu_nonneg t c v : (c < m)%nat -> In v (vars_of H c) -> 0 <= nu t c v.
  Proof. intros Hc Hv. apply (nu_facts_of t (mu_nonneg t) c v Hc Hv). Qed.
  Lemma mu_pos t c v : (c < m)%nat -> In v (vars_of H c) -> (0 < mu (S t) c v <-> 0 < L v \/ exists d, In d (checks_of H v) /\ d <> c /\ 0 < nu t d v).
  Proof.
    intros Hc Hv. rewrite to_check_S by (apply edge_sym; assumption). destruct (total_pos_iff (fun d => nu t d v) (filter (fun w => negb (w =? c)%nat) (checks_of H v))) as [T1 T2].
    { intros d Hd. apply filter_In in Hd. destruct (checks_in H d v (proj1 Hd) (vars_lt H c v Hv)) as [Hd1 Hd2]. apply nu_nonneg; assumption. }
    pose proof (HL v) as H0. split.
    - intros HP. destruct (Rlt_dec 0 (L v)) as [|Hn]; [left; assumption|right]. destruct (proj1 T2 ltac:(lra)) as (d & Hd & Hp). apply filter_In in Hd. destruct Hd as [Hd Hb]. exists d. split; [exact Hd|]. split; [|exact Hp]. intros ->. rewrite Nat.eqb_refl in Hb. discriminate.
    - intros [HP|(d & Hd & Hne & Hp)]; [lra|]. assert (0 < total (fun d => nu t d v) (filter (fun w => negb (w =? c)%nat) (checks_of H v))); [|lra]. apply T2. exists d. split; [|exact Hp]. apply filter_In. split; [exact Hd|]. apply Nat.eqb_neq in Hne. rewrite Hne. reflexivity.
  Qed.
  Lemma belief_nonneg_pos t v : (v < a_cols H)%nat -> 0 <= belief H msa_rule L (S t) v /\ (0 < belief H msa_rule L (S t) v <-> 0 < L v \/ exists d, In d (checks_of H v) /\ 0 < nu t d v).
  Proof.
    intros Hv. cbn [belief]. unfold posterior. destruct (total_pos_iff (fun d => nu t d v) (checks_of H v)) as [T1 T2].
    { intros d Hd. destruct (checks_in H d v Hd Hv) as [Hd1 Hd2]. apply nu_nonneg; assumption. }
    pose proof (HL v) as H0. split; [lra|]. split.
    - intros HP. destruct (Rlt_dec 0 (L v)) as [|Hn]; [left; assumption|right]. apply T2. lra.
    - intros [HP|HE]; [lra|]. apply T2 in HE. lra.
  Qed.
  Lemma mu_mono t : forall c v, (c < m)%nat -> In v (vars_of H c) -> 0 < mu t c v -> 0 < mu (S t) c v.
  Proof.
    induction t as [|t IH]; intros c v Hc Hv HP; apply mu_pos; try assumption; [left; exact HP|]. apply mu_pos in HP; [|exact Hc|exact Hv]. destruct HP as [HP|(d & Hd & Hne & Hp)]; [left; exact HP|right]. exists d. split; [exact Hd|]. split; [exact Hne|].
    destruct (checks_in H d v Hd (vars_lt H c v Hv)) as [Hd1 Hd2]. apply (nu_pos (S t) d v Hd1 Hd2). intros w Hw Hwv. apply IH; [exact Hd1|exact Hw|]. apply (proj1 (nu_pos t d v Hd1 Hd2) Hp); assumption.
  Qed.
  Lemma nu_mono t c v : (c < m)%nat -> In v (vars_of H c) -> 0 < nu t c v -> 0 < nu (S t) c v.
  Proof. intros Hc Hv HP. apply nu_pos; try assumption. intros w Hw Hne. apply mu_mono; try assumption. apply (proj1 (nu_pos t c v Hc Hv) HP); assumption. Qed.
  Lemma belief_mono t v : (v < a_cols H)%nat -> 0 < belief H msa_rule L t v -> 0 < belief H msa_rule L (S t) v.
  Proof.
    intros Hv HP. apply (belief_nonneg_pos t v Hv). destruct t as [|t]; [left; exact HP|]. apply (belief_nonneg_pos t v Hv) in HP. destruct HP as [HP|(d & Hd & Hp)]; [left; exact HP|right]. exists d. split; [exact Hd|]. destruct (checks_in H d v Hd Hv). apply nu_mono; assumption.
  Qed.
  Lemma mu_belief t c v : (c < m)%nat -> In v (vars_of H c) -> 0 < mu t c v -> 0 < belief H msa_rule L t v.
  Proof.
    intros Hc Hv HP. destruct t as [|t]; [exact HP|]. apply (belief_nonneg_pos t v (vars_lt H c v Hv)). apply mu_pos in HP; [|exact Hc|exact Hv]. destruct HP as [HP|(d & Hd & _ & Hp)]; [left; exact HP|right; exists d; split; assumption].
  Qed.
  (* a variable known at step t is known to check c unless c itself told it, but then c knew all its other variables *)
  Lemma belief_mu t c v w : (c < m)%nat -> In v (vars_of H c) -> In w (vars_of H c) -> w <> v -> ~ 0 < belief H msa_rule L t v -> 0 < belief H msa_rule L t w -> 0 < mu t c w.
  Proof.
    intros Hc Hv Hw Hne Hn HP. destruct t as [|t]; [exact HP|]. apply (belief_nonneg_pos t w (vars_lt H c w Hw)) in HP. apply mu_pos; [exact Hc|exact Hw|]. destruct HP as [HP|(d & Hd & Hp)]; [left; exact HP|right].
    exists d. split; [exact Hd|]. split; [|exact Hp]. intros ->. apply Hn. apply belief_mono; [exact (vars_lt H c v Hv)|]. apply (mu_belief t c v Hc Hv). apply (proj1 (nu_pos t c w Hc Hw) Hp); [exact Hv|]. intros ->. apply Hne. reflexivity.
  Qed.
  Definition unknown t v : bool := if Rlt_dec 0 (belief H msa_rule L t v) then false else (v <? a_cols H)%nat.
  Lemma unknown_spec t v : unknown t v = true <-> (v < a_cols H)%nat /\ ~ 0 < belief H msa_rule L t v.
  Proof. unfold unknown. destruct (Rlt_dec 0 (belief H msa_rule L t v)); rewrite ?Nat.ltb_lt; [|tauto]. split; [discriminate|]. intros [_ Hn]. contradiction. Qed.
  Lemma progress t : (exists v, unknown t v = true) -> ~ stopping_set H (unknown t) -> exists v, unknown t v = true /\ unknown (S t) v = false.
  Proof.
    intros _ HS. assert (HE : exists c, (c < m)%nat /\ length (filter (unknown t) (vars_of H c)) = 1%nat).
    { destruct (Forall_Exists_dec (fun c => length (filter (unknown t) (vars_of H c)) <> 1%nat) (fun c => match Nat.eq_dec _ 1 with left e => right (fun f => f e) | right f => left f end) (seq 0 m)) as [HF|HF].
      - exfalso. apply HS. intros c Hc. rewrite Forall_forall in HF. apply HF, in_seq. lia.
      - apply Exists_exists in HF. destruct HF as (c & Hc & Hn). apply in_seq in Hc. exists c. split; [lia|]. destruct (Nat.eq_dec (length (filter (unknown t) (vars_of H c))) 1); [assumption|contradiction]. }
    destruct HE as (c & Hc & E1). destruct (filter (unknown t) (vars_of H c)) as [|v [|]] eqn:EF; cbn [length] in E1; try lia.
    assert (Hv : In v (filter (unknown t) (vars_of H c))) by (rewrite EF; left; reflexivity). apply filter_In in Hv. destruct Hv as [Hv Hu]. exists v. split; [exact Hu|]. apply unknown_spec in Hu. destruct Hu as [Hvn Hn].
    assert (HP : 0 < belief H msa_rule L (S t) v).
    { apply (belief_nonneg_pos t v Hvn). right. exists c. split; [apply edge_sym; assumption|]. apply nu_pos; try assumption. intros w Hw Hne. apply (belief_mu t c v w); try assumption.
      destruct (Rlt_dec 0 (belief H msa_rule L t w)) as [|Hwn]; [assumption|exfalso]. assert (Hi : In w (filter (unknown t) (vars_of H c))) by (apply filter_In; split; [exact Hw|]; apply unknown_spec; split; [exact (vars_lt H c w Hw)|exact Hwn]). rewrite EF in Hi. destruct Hi as [->|[]]. contradiction. }
    unfold unknown. destruct (Rlt_dec 0 (belief H msa_rule L (S t) v)); [reflexivity|contradiction].
  Qed.
  Lemma unknown_mono t v : unknown (S t) v = true -> unknown t v = true.
  Proof. rewrite !unknown_spec. intros [Hv Hn]. split; [exact Hv|]. intros HP. apply Hn, belief_mono; assumption. Qed.
  Lemma unknown_erased t v : unknown t v = true -> (v < a_cols H)%nat /\ L v = 0.
  Proof.
    intros Hu. assert (H0 : unknown 0 v = true) by (induction t as [|t IH]; [exact Hu|apply IH, unknown_mono, Hu]). apply unknown_spec in H0. destruct H0 as [Hv Hn]. split; [exact Hv|]. cbn [belief] in Hn. pose proof (HL v). lra.
  Qed.
  Definition count t : nat := length (filter (unknown t) (seq 0 (a_cols H))).
  Hypothesis Hstop : forall S, (forall v, S v = true -> (v < a_cols H)%nat /\ L v = 0) -> stopping_set H S -> forall v, S v = false.
  Lemma count_step t : (count t = 0 \/ count (S t) < count t)%nat.
  Proof.
    unfold count. destruct (filter (unknown t) (seq 0 (a_cols H))) as [|v0 l0] eqn:E0; [left; reflexivity|right]. rewrite <- E0.
    assert (Hv0 : In v0 (filter (unknown t) (seq 0 (a_cols H)))) by (rewrite E0; left; reflexivity). apply filter_In in Hv0. destruct Hv0 as [_ Hv0].
    destruct (progress t) as (v & Hv & Hv'); [exists v0; exact Hv0| |].
    { intros HS. rewrite (Hstop (unknown t) (unknown_erased t) HS v0) in Hv0. discriminate. }
    assert (Hin : In v (seq 0 (a_cols H))) by (apply unknown_spec in Hv; apply in_seq; lia).
    assert (G : forall l, (length (filter (unknown (S t)) l) <= length (filter (unknown t) l))%nat).
    { intros l. induction l as [|w l IH]; [cbn; lia|]. cbn [filter]. destruct (unknown (S t) w) eqn:Ew; [rewrite (unknown_mono t w Ew); cbn [length]; lia|]. destruct (unknown t w); cbn [length]; lia. }
    revert Hin. generalize (seq 0 (a_cols H)). intros l Hin. induction l as [|w l IH]; [destruct Hin|]. cbn [filter]. destruct Hin as [->|Hin].
    - rewrite Hv, Hv'. cbn [length]. specialize (G l). lia.
    - specialize (IH Hin). destruct (unknown (S t) w) eqn:Ew; [rewrite (unknown_mono t w Ew); cbn [length]; lia|]. destruct (unknown t w); cbn [length]; lia.
  Qed.
  Lemma count_bound t : (count t + t <= count 0 \/ count t = 0)%nat.
  Proof. induction t as [|t IH]; [left; lia|]. destruct (count_step t) as [E|E]; [right|lia]. unfold count in *. assert (G : (length (filter (unknown (S t)) (seq 0 (a_cols H))) <= length (filter (unknown t) (seq 0 (a_cols H))))%nat); [|lia]. generalize (seq 0 (a_cols H)). intros l. induction l as [|w l IHl]; [cbn; lia|]. cbn [filter]. destruct (unknown (S t) w) eqn:Ew; [rewrite (unknown_mono t w Ew); cbn [length]; lia|]. destruct (unknown t w); cbn [length]; lia.
  Qed.
  Lemma all_known t : (count 0 <= t)%nat -> forall v, (v < a_cols H)%nat -> 0 < belief H msa_rule L t v.
  Proof.
    intros Ht v Hv. assert (E : count t = 0%nat) by (destruct (count_bound t); lia). destruct (Rlt_dec 0 (belief H msa_rule L t v)) as [|Hn]; [assumption|exfalso]. unfold count in E.
    assert (Hi : In v (filter (unknown t) (seq 0 (a_cols H)))) by (apply filter_In; split; [apply in_seq; lia|]; apply unknown_spec; split; assumption). destruct (filter (unknown t) (seq 0 (a_cols H))); [destruct Hi|cbn in E; lia].
  Qed.
End Erase.

(* ---------------------------------------------------------------- majority *)
Lemma msa_const A l : 0 < A -> Forall (fun x => Rabs x = A) l -> l <> [] -> - A <= msa_rule l /\ (Forall (fun x => 0 < x) l -> msa_rule l = A).
Proof.
  intros HA HF Hn. destruct l as [|x l]; [congruence|]. assert (E : Rabs (msa_rule (x :: l)) = A).
  { rewrite (proj1 (msa_facts l x)). clear Hn. revert x HF. induction l as [|y l IH]; intros x HF; inversion HF as [|? ? Hx HF']; subst; [reflexivity|]. rewrite min_abs_cons, (IH y HF'). apply Rmin_left. lra. }
  split; [|intros HP; pose proof (msa_pos _ Hn HP) as H0; rewrite Rabs_right in E by lra; exact E]. rewrite <- E. pose proof (Rle_abs (- msa_rule (x :: l))) as H0. rewrite Rabs_Ropp in H0. lra.
Qed.
Lemma NoDup_map_inj_in {B C} (f : B -> C) l : (forall x y, In x l -> In y l -> f x = f y -> x = y) -> NoDup l -> NoDup (map f l).
Proof.
  intros Hf HN. induction HN as [|x l Hx HN IH]; [constructor|]. cbn [map]. constructor.
  - intros Hi. apply in_map_iff in Hi. destruct Hi as (y & E & Hy). assert (y = x) by (apply Hf; [right; exact Hy|left; reflexivity|exact E]). subst. contradiction.
  - apply IH. intros y z Hy Hz. apply Hf; right; assumption.
Qed.
Section Majority.
  Variables (H : arr2) (L : nat -> R) (A : R) (HA : 0 < A).
  Hypothesis deg2 : forall c, (c < length (a_rows H))%nat -> (2 <= length (vars_of H c))%nat.
  Hypothesis HL : forall v, (v < a_cols H)%nat -> Rabs (L v) = A.
  Hypothesis Hcom : forall v w, (v < a_cols H)%nat -> (w < a_cols H)%nat -> v <> w -> (common_checks H v w <= 1)%nat.
  Local Notation m := (length (a_rows H)).
  Definition bad_var (v e : nat) : bool := negb (e =? v)%nat && (if Rlt_dec (L e) 0 then true else false).
  Definition bad_check (v c : nat) : bool := existsb (bad_var v) (vars_of H c).
  Lemma nu0 c v : (c < m)%nat -> In v (vars_of H c) -> - A <= to_var H msa_rule (to_check H msa_rule L 0) c v /\ (bad_check v c = false -> to_var H msa_rule (to_check H msa_rule L 0) c v = A).
  Proof.
    intros Hc Hv. unfold to_var. cbn [to_check]. destruct (msa_const A (map L (filter (fun w => negb (w =? v)%nat) (vars_of H c)))) as [M1 M2]; [exact HA| | |].
    - apply Forall_map, Forall_forall. intros w Hw. apply filter_In in Hw. apply HL. exact (vars_lt H c w (proj1 Hw)).
    - intros E. apply map_eq_nil in E. exact (others_ne H deg2 c v Hc Hv E).
    - split; [exact M1|]. intros Hb. apply M2. apply Forall_map, Forall_forall. intros w Hw. apply filter_In in Hw. destruct Hw as [Hw Hne]. destruct (Rlt_dec 0 (L w)) as [|Hn]; [assumption|exfalso].
      assert (HX : bad_check v c = true); [|congruence]. apply existsb_exists. exists w. split; [exact Hw|]. unfold bad_var. rewrite Hne. pose proof (HL w (vars_lt H c w Hw)) as Hw2. destruct (Rlt_dec (L w) 0); [reflexivity|]. assert (L w = 0) as E0 by lra. rewrite E0, Rabs_R0 in Hw2. lra.
  Qed.
  Lemma bad_bound v : (v < a_cols H)%nat -> (length (filter (bad_check v) (checks_of H v)) <= length (filter (bad_var v) (seq 0 (a_cols H))))%nat.
  Proof.
    intros Hv. set (f := fun c => hd 0%nat (filter (bad_var v) (vars_of H c))).
    assert (Hf : forall c, In c (filter (bad_check v) (checks_of H v)) -> In (f c) (vars_of H c) /\ bad_var v (f c) = true).
    { intros c Hc. apply filter_In in Hc. destruct Hc as [_ Hb]. apply existsb_exists in Hb. destruct Hb as (e & He & Hb). unfold f. assert (Hi : In e (filter (bad_var v) (vars_of H c))) by (apply filter_In; split; assumption). destruct (filter (bad_var v) (vars_of H c)) as [|e0 l] eqn:E; [destruct Hi|]. cbn [hd]. assert (Hi0 : In e0 (filter (bad_var v) (vars_of H c))) by (rewrite E; left; reflexivity). apply filter_In in Hi0. exact Hi0. }
    rewrite <- (map_length f). apply NoDup_incl_length.
    - apply NoDup_map_inj_in; [|apply NoDup_filter, checks_NoDup]. intros c d Hc Hd E. destruct (Hf c Hc) as [Hc1 Hc2]. destruct (Hf d Hd) as [Hd1 _]. rewrite <- E in Hd1. clear E. generalize dependent (f c). intros e Hc1 Hc2 Hd1.
      assert (Hne : v <> e) by (intros E; unfold bad_var in Hc2; rewrite E, Nat.eqb_refl in Hc2; discriminate). pose proof (Hcom v e Hv (vars_lt H c e Hc1) Hne) as Hcm. unfold common_checks in Hcm.
      assert (Hin : forall k, In e (vars_of H k) -> In k (checks_of H v) -> In k (filter (fun c => (hij (a_rows H) c e =? 1)%Z) (checks_of H v))).
      { intros k Hk1 Hk2. apply filter_In. split; [exact Hk2|]. unfold vars_of in Hk1. apply filter_In in Hk1. exact (proj2 Hk1). }
      pose proof (Hin c Hc1 (proj1 (proj1 (filter_In _ _ _) Hc))) as I1. pose proof (Hin d Hd1 (proj1 (proj1 (filter_In _ _ _) Hd))) as I2.
      destruct (filter (fun c => (hij (a_rows H) c e =? 1)%Z) (checks_of H v)) as [|k [|k2 l]]; [destruct I1| |cbn in Hcm; lia]. destruct I1 as [<-|[]]. destruct I2 as [<-|[]]. reflexivity.
    - intros e He. apply in_map_iff in He. destruct He as (c & <- & Hc). destruct (Hf c Hc) as [Hc1 Hc2]. apply filter_In. split; [apply in_seq; pose proof (vars_lt H c _ Hc1); lia|exact Hc2].
  Qed.
  Lemma belief1 v : (v < a_cols H)%nat -> L v + A * (INR (length (checks_of H v)) - 2 * INR (length (filter (bad_check v) (checks_of H v)))) <= belief H msa_rule L 1 v.
  Proof.
    intros Hv. cbn [belief]. unfold posterior. apply Rplus_le_compat_l. pose proof (fun c Hc => checks_in H c v Hc Hv) as HI. revert HI. generalize (checks_of H v). intros l HI. induction l as [|c l IH]; [rewrite total_nil; cbn; lra|].
    rewrite total_cons. specialize (IH (fun d Hd => HI d (or_intror Hd))). destruct (HI c (or_introl eq_refl)) as [Hc Hvc]. destruct (nu0 c v Hc Hvc) as [N1 N2]. cbn [filter]. destruct (bad_check v c); cbn [length]; rewrite ?S_INR; [|rewrite (N2 eq_refl)]; lra.
  Qed.
  Definition nerr : nat := length (filter (fun e => if Rlt_dec (L e) 0 then true else false) (seq 0 (a_cols H))).
  Lemma nerr_split v : (v < a_cols H)%nat -> nerr = (length (filter (bad_var v) (seq 0 (a_cols H))) + if Rlt_dec (L v) 0 then 1 else 0)%nat.
  Proof.
    intros Hv. unfold nerr. assert (Hin : In v (seq 0 (a_cols H))) by (apply in_seq; lia). pose proof (seq_NoDup (a_cols H) 0) as HN. revert Hin HN. generalize (seq 0 (a_cols H)). intros l Hin HN.
    assert (G : forall l, ~ In v l -> filter (bad_var v) l = filter (fun e => if Rlt_dec (L e) 0 then true else false) l).
    { clear. intros l Hn. apply filter_ext_in. intros e He. unfold bad_var. destruct (Nat.eqb_spec e v) as [->|]; [contradiction|reflexivity]. }
    induction HN as [|e l He HN IH]; [destruct Hin|]. cbn [filter]. unfold bad_var at 1. destruct (Nat.eqb_spec e v) as [->|Hne]; cbn [negb andb].
    - rewrite (G l He). destruct (Rlt_dec (L v) 0); cbn [length]; lia.
    - destruct Hin as [->|Hin]; [contradiction|]. specialize (IH Hin). destruct (Rlt_dec (L e) 0); cbn [length]; lia.
  Qed.
  Hypothesis Hdeg : forall v, (v < a_cols H)%nat -> (2 * nerr <= length (checks_of H v))%nat.
  Lemma majority v : (v < a_cols H)%nat -> 0 < belief H msa_rule L 1 v.
  Proof.
    intros Hv. pose proof (belief1 v Hv) as HB. pose proof (bad_bound v Hv) as Hb. pose proof (Hdeg v Hv) as Hd. pose proof (nerr_split v Hv) as Hs. pose proof (HL v Hv) as HLv.
    set (dv := length (checks_of H v)) in *. set (nb := length (filter (bad_check v) (checks_of H v))) in *. set (ne := length (filter (bad_var v) (seq 0 (a_cols H)))) in *.
    apply le_INR in Hb. apply le_INR in Hd. rewrite mult_INR in Hd. rewrite Hs, plus_INR in Hd. cbn [INR] in Hd.
    assert (G : forall k, k <= INR dv - 2 * INR nb -> L v + A * k <= belief H msa_rule L 1 v) by (intros k Hk; eapply Rle_trans; [|exact HB]; apply Rplus_le_compat_l, Rmult_le_compat_l; lra).
    destruct (Rlt_dec (L v) 0) as [Hn|Hn].
    - rewrite Rabs_left in HLv by exact Hn. cbn [INR] in Hd. pose proof (G 2 ltac:(lra)). lra.
    - rewrite Rabs_right in HLv by lra. cbn [INR] in Hd. pose proof (G 0 ltac:(lra)). lra.
  Qed.
  (* nonempty error patterns of this size are no codewords *)
  Lemma detected : (exists v, (v < a_cols H)%nat /\ L v < 0) -> exists c, (c < m)%nat /\ length (filter (fun e => if Rlt_dec (L e) 0 then true else false) (vars_of H c)) = 1%nat.
  Proof.
    intros (v & Hv & Hn). pose proof (bad_bound v Hv) as Hb. pose proof (Hdeg v Hv) as Hd. pose proof (nerr_split v Hv) as Hs. destruct (Rlt_dec (L v) 0); [|contradiction].
    assert (HE : exists c, In c (checks_of H v) /\ bad_check v c = false).
    { destruct (Forall_Exists_dec (fun c => bad_check v c = true) (fun c => match Bool.bool_dec _ true with left e => left e | right f => right f end) (checks_of H v)) as [HF|HF].
      - exfalso. assert (E : filter (bad_check v) (checks_of H v) = checks_of H v). { revert HF. generalize (checks_of H v). clear. intros l HF. induction HF as [|c l Hc HF IH]; [reflexivity|]. cbn [filter]. rewrite Hc, IH. reflexivity. } rewrite E in Hb. lia.
      - apply Exists_exists in HF. destruct HF as (c & Hc & Hn'). exists c. split; [exact Hc|]. destruct (bad_check v c); [exfalso; apply Hn'; reflexivity|reflexivity]. }
    destruct HE as (c & Hc & Hb'). destruct (checks_in H c v Hc Hv) as [Hcm Hvc]. exists c. split; [exact Hcm|].
    assert (Hz : forall w, In w (vars_of H c) -> w <> v -> ~ L w < 0).
    { intros w Hw Hne HL0. assert (HX : bad_check v c = true); [|congruence]. apply existsb_exists. exists w. split; [exact Hw|]. unfold bad_var. apply Nat.eqb_neq in Hne. rewrite Hne. destruct (Rlt_dec (L w) 0); [reflexivity|contradiction]. }
    pose proof (vars_NoDup H c) as HN. revert Hvc Hz HN. generalize (vars_of H c). intros l Hvc Hz HN. induction HN as [|w l Hw HN IH]; [destruct Hvc|]. cbn [filter]. destruct Hvc as [->|Hvc].
    - destruct (Rlt_dec (L v) 0); [|contradiction]. cbn [length]. f_equal. assert (E : filter (fun e => if Rlt_dec (L e) 0 then true else false) l = []); [|rewrite E; reflexivity].
      assert (Hz' : forall u, In u l -> ~ L u < 0) by (intros u Hu; apply Hz; [right; exact Hu|]; intros ->; contradiction). revert Hz'. clear. induction l as [|u l IH]; intros Hz; [reflexivity|]. cbn [filter]. destruct (Rlt_dec (L u) 0) as [Hu|]; [exfalso; exact (Hz u (or_introl eq_refl) Hu)|]. apply IH. intros k Hk. apply Hz. right. exact Hk.
    - destruct (Rlt_dec (L w) 0) as [Hw0|]; [exfalso; apply (Hz w); [left; reflexivity|intros ->; contradiction|exact Hw0]|]. apply IH; [exact Hvc|]. intros u Hu. apply Hz. right. exact Hu.
  Qed.
End Majority.
