(* The marking loop of GF.cosets computes the classes of multiplication by 2 modulo 2^m - 1. *)
From Verif Require Import Base UtilModel GFModel.
From Coq Require Import Permutation Zpow_facts.

Section Cosets.
Variables (m : nat) (N : Z).
Hypothesis Hm : (1 <= m)%nat.
Hypothesis HN : N = 2 ^ Z.of_nat m - 1.

Lemma Npos : 1 <= N.
Proof. assert (2 ^ 1 <= 2 ^ Z.of_nat m) by (apply Z.pow_le_mono_r; lia). lia. Qed.

Lemma pow2m_mod : 2 ^ Z.of_nat m mod N = 1 mod N.
Proof. pose proof Npos. replace (2 ^ Z.of_nat m) with (1 + 1 * N) by lia. apply Z_mod_plus_full. Qed.

Lemma mul_pow2m a k : (a * 2 ^ (k * Z.of_nat m)) mod N = a mod N \/ k < 0.
Proof.
  destruct (Z.lt_ge_cases k 0) as [|Hk]; [right; lia|left].
  pose proof Npos. rewrite Z.mul_comm with (n := k), Z.pow_mul_r by lia.
  rewrite <- Zmult_mod_idemp_r.
  assert (E : (2 ^ Z.of_nat m) ^ k mod N = 1 mod N).
  { rewrite Zpower_mod by lia. rewrite pow2m_mod. rewrite <- Zpower_mod by lia. rewrite Z.pow_1_l by lia. reflexivity. }
  rewrite E. rewrite Zmult_mod_idemp_r, Z.mul_1_r. reflexivity.
Qed.

(* b is a conjugate exponent of a *)
Definition conj (a b : Z) : Prop := exists k : nat, b = (a * 2 ^ Z.of_nat k) mod N.

Lemma conj_refl a : 0 <= a < N -> conj a a.
Proof. intros H. exists 0%nat. cbn [Z.of_nat]. rewrite Z.pow_0_r, Z.mul_1_r, Z.mod_small by lia. reflexivity. Qed.

Lemma conj_trans a b c : conj a b -> conj b c -> conj a c.
Proof.
  intros [k ->] [j ->]. pose proof Npos. exists (k + j)%nat. rewrite Nat2Z.inj_add, Z.pow_add_r by lia.
  rewrite Zmult_mod_idemp_l. f_equal. ring.
Qed.

Lemma conj_sym a b : 0 <= a < N -> conj a b -> conj b a.
Proof.
  intros Ha [k ->]. pose proof Npos. exists (k * (m - 1))%nat. rewrite Zmult_mod_idemp_l.
  rewrite <- Z.mul_assoc, <- Z.pow_add_r by apply Nat2Z.is_nonneg.
  replace (Z.of_nat k + Z.of_nat (k * (m - 1))) with (Z.of_nat k * Z.of_nat m) by nia.
  destruct (mul_pow2m a (Z.of_nat k)) as [E|E]; [|lia]. rewrite E, Z.mod_small by lia. reflexivity.
Qed.

Lemma conj_range a b : conj a b -> 0 <= b < N.
Proof. intros [k ->]. pose proof Npos. apply Z.mod_pos_bound. lia. Qed.

Lemma conj_0 b : conj 0 b -> b = 0.
Proof. intros [k ->]. cbn [Z.mul]. apply Z.mod_0_l. pose proof Npos. lia. Qed.

Variable x : list Z.
Hypothesis Hx : Forall (fun v => 0 <= v < N) x.
Hypothesis Hdup : forall i j, (i < length x)%nat -> (j < length x)%nat -> nth i x 0 = nth j x 0 -> i = j \/ nth i x 0 = 0.

Lemma x_range i : (i < length x)%nat -> 0 <= nth i x 0 < N.
Proof. intros H. rewrite Forall_forall in Hx. apply Hx, nth_In, H. Qed.

Lemma mark_equal_length mark v c : length mark = length x -> length (mark_equal x mark v c) = length x.
Proof. intros H. unfold mark_equal. rewrite map_length, combine_length. lia. Qed.

Lemma mark_equal_nth mark v c j : length mark = length x -> (j < length x)%nat ->
  nth j (mark_equal x mark v c) 0 = if (nth j mark 0 =? 0) && (nth j x 0 =? v) then c else nth j mark 0.
Proof.
  intros H Hj. unfold mark_equal. rewrite (nth_map_lt _ _ _ (0, 0)) by (rewrite combine_length; lia).
  rewrite combine_nth by lia. reflexivity.
Qed.

(* the loop from exponent i marks a*2^i, a*2^(i+1), ... up to the first return to a *)
Lemma coset_loop_spec a c : 0 <= a < N -> c <> 0 -> forall fuel i mark,
  (1 <= i)%nat -> (i <= m)%nat -> (m - i < fuel)%nat -> length mark = length x ->
  exists mark' d, coset_loop fuel N a (Z.of_nat i) c x mark = Ok mark' /\ length mark' = length x /\
    (i <= d)%nat /\ (a * 2 ^ Z.of_nat d) mod N = a /\
    (forall k, (i <= k < d)%nat -> (a * 2 ^ Z.of_nat k) mod N <> a) /\
    forall j, (j < length x)%nat ->
      (nth j mark' 0 = c /\ nth j mark 0 = 0 /\ exists k, (i <= k < d)%nat /\ nth j x 0 = (a * 2 ^ Z.of_nat k) mod N) \/
      (nth j mark' 0 = nth j mark 0 /\ (nth j mark 0 = 0 -> forall k, (i <= k < d)%nat -> nth j x 0 <> (a * 2 ^ Z.of_nat k) mod N)).
Proof.
  intros Ha Hc. induction fuel as [|fuel IH]; intros i mark Hi1 Him Hf Hlen; [lia|].
  cbn [coset_loop]. set (v := (a * 2 ^ Z.of_nat i) mod N).
  destruct (Z.eqb_spec v a) as [E|E].
  - exists mark, i. split; [reflexivity|]. split; [exact Hlen|]. split; [lia|]. split; [exact E|].
    split; [intros k Hk; lia|]. intros j Hj. right. split; [reflexivity|]. intros _ k Hk. lia.
  - assert (Hne : i <> m).
    { intros ->. apply E. unfold v. destruct (mul_pow2m a 1) as [E1|]; [|lia].
      rewrite Z.mul_1_l in E1. rewrite E1. apply Z.mod_small. exact Ha. }
    destruct (IH (S i) (mark_equal x mark v c)) as (mark' & d & H1 & H2 & H3 & H4 & H5 & H6); try lia.
    { apply mark_equal_length; exact Hlen. }
    replace (Z.of_nat i + 1) with (Z.of_nat (S i)) by lia.
    exists mark', d. split; [exact H1|]. split; [exact H2|]. split; [lia|]. split; [exact H4|]. split.
    { intros k Hk. destruct (Nat.eq_dec k i) as [->|]; [exact E|]. apply H5. lia. }
    intros j Hj. specialize (H6 j Hj). rewrite mark_equal_nth in H6 by assumption.
    destruct ((nth j mark 0 =? 0) && (nth j x 0 =? v)) eqn:Eb.
    + apply andb_true_iff in Eb. destruct Eb as [Eb1 Eb2]. apply Z.eqb_eq in Eb1, Eb2.
      destruct H6 as [(_ & Hcc & _)|(Hv & _)]; [contradiction|]. left. split; [exact Hv|]. split; [exact Eb1|].
      exists i. split; [lia|exact Eb2].
    + destruct H6 as [(Hv & Hz & k & Hk & Ek)|(Hv & Hno)].
      * left. split; [exact Hv|]. split; [exact Hz|]. exists k. split; [lia|exact Ek].
      * right. split; [exact Hv|]. intros Hz k Hk. destruct (Nat.eq_dec k i) as [->|].
        -- rewrite Hz in Eb. cbn in Eb. apply Z.eqb_neq in Eb. exact Eb.
        -- apply Hno; [exact Hz|lia].
Qed.

(* powers past the first return repeat *)
Lemma conj_before_return a d : 0 <= a < N -> (1 <= d)%nat -> (a * 2 ^ Z.of_nat d) mod N = a ->
  forall k, exists k', (k' < d)%nat /\ (a * 2 ^ Z.of_nat k) mod N = (a * 2 ^ Z.of_nat k') mod N.
Proof.
  intros Ha Hd Hret k. induction k as [k IH] using lt_wf_ind.
  destruct (Nat.lt_ge_cases k d) as [Hlt|Hge]; [exists k; split; [exact Hlt|reflexivity]|].
  destruct (IH (k - d)%nat ltac:(lia)) as (k' & Hk' & E). exists k'. split; [exact Hk'|]. rewrite <- E.
  pose proof Npos. replace (Z.of_nat k) with (Z.of_nat d + Z.of_nat (k - d)) by lia.
  rewrite Z.pow_add_r, Z.mul_assoc by lia. rewrite <- Zmult_mod_idemp_l, Hret. reflexivity.
Qed.

Lemma coset_loop_full a c mark : 0 <= a < N -> c <> 0 -> length mark = length x ->
  exists mark', coset_loop (S m) N a 1 c x mark = Ok mark' /\ length mark' = length x /\
    forall j, (j < length x)%nat ->
      (nth j mark' 0 = c /\ nth j mark 0 = 0 /\ nth j x 0 <> a /\ conj a (nth j x 0)) \/
      (nth j mark' 0 = nth j mark 0 /\ (nth j mark 0 = 0 -> conj a (nth j x 0) -> nth j x 0 = a)).
Proof.
  intros Ha Hc Hlen.
  destruct (coset_loop_spec a c Ha Hc (S m) 1 mark) as (mark' & d & H1 & H2 & H3 & H4 & H5 & H6); try lia.
  exists mark'. split; [exact H1|]. split; [exact H2|]. intros j Hj.
  destruct (H6 j Hj) as [(Hv & Hz & k & Hk & Ek)|(Hv & Hno)].
  - left. split; [exact Hv|]. split; [exact Hz|]. rewrite Ek. split; [apply H5; exact Hk|]. exists k. reflexivity.
  - right. split; [exact Hv|]. intros Hz [k Ek].
    destruct (conj_before_return a d Ha ltac:(lia) H4 k) as (k' & Hk' & E). rewrite Ek, E.
    destruct (Nat.eq_dec k' 0) as [->|].
    + cbn [Z.of_nat]. rewrite Z.pow_0_r, Z.mul_1_r. apply Z.mod_small. exact Ha.
    + exfalso. apply (Hno Hz k'); [lia|]. rewrite Ek. exact E.
Qed.

(* two positions are in the same class *)
Definition same (i j : nat) : Prop := i = j \/ (nth i x 0 <> 0 /\ conj (nth i x 0) (nth j x 0)).

Lemma same_sym i j : (i < length x)%nat -> (j < length x)%nat -> same i j -> same j i.
Proof.
  intros Hi Hj [->|[H1 H2]]; [left; reflexivity|]. right. pose proof (x_range i Hi).
  assert (Hc := conj_sym _ _ H H2). split; [|exact Hc]. intros E. rewrite E in Hc. apply conj_0 in Hc. contradiction.
Qed.
Lemma same_trans i j k : same i j -> same j k -> same i k.
Proof.
  intros [->|[H1 H2]] [->|[H3 H4]]; unfold same; auto. right. split; [exact H1|]. eapply conj_trans; eassumption.
Qed.

Record inv (idx : nat) (mark : list Z) (count : Z) : Prop := {
  inv_len : length mark = length x;
  inv_count : 1 <= count;
  inv_range : forall j, (j < length x)%nat -> 0 <= nth j mark 0 < count;
  inv_done : forall j, (j < idx)%nat -> (j < length x)%nat -> nth j mark 0 <> 0;
  inv_used : forall c, 1 <= c < count -> exists j, (j < length x)%nat /\ nth j mark 0 = c;
  inv_same : forall i j, (i < length x)%nat -> (j < length x)%nat -> nth i mark 0 <> 0 -> (nth j mark 0 = nth i mark 0 <-> same i j)
}.

Lemma cosets_loop_spec n : forall idx mark count, (idx + n = length x)%nat -> inv idx mark count ->
  exists mark' count', cosets_loop m (seq idx n) x mark count = Ok (mark', count') /\ inv (length x) mark' count'.
Proof.
  induction n as [|n IH]; intros idx mark count Hn I.
  - exists mark, count. split; [reflexivity|]. replace (length x) with idx by lia. exact I.
  - cbn [seq cosets_loop]. destruct I as [I1 I2 I3 I4 I5 I6].
    destruct (Z.eqb_spec (nth idx mark 0) 0) as [E0|E0].
    + assert (Hidx : (idx < length x)%nat) by lia. pose proof (x_range idx Hidx) as Ha. rewrite <- HN.
      destruct (coset_loop_full (nth idx x 0) count (upd mark idx count) Ha ltac:(lia)) as (mark' & H1 & H2 & H3).
      { rewrite upd_length. exact I1. }
      rewrite H1. cbn [bind].
      assert (Hmidx : nth idx mark' 0 = count).
      { destruct (H3 idx Hidx) as [(Hv & _)|(Hv & _)]; [exact Hv|]. rewrite Hv. apply nth_upd_eq. lia. }
      assert (Hnew : forall j, (j < length x)%nat -> (same idx j -> nth j mark 0 = 0 /\ nth j mark' 0 = count) /\
                                (~ same idx j -> nth j mark' 0 = nth j mark 0)).
      { intros j Hj. destruct (Nat.eq_dec j idx) as [->|Hne].
        - split; [intros _; split; [exact E0|exact Hmidx]|]. intros Hns. exfalso. apply Hns. left. reflexivity.
        - specialize (H3 j Hj). rewrite nth_upd_neq in H3 by exact Hne. split.
          + intros Hs. assert (Hz : nth j mark 0 = 0).
            { destruct (Z.eq_dec (nth j mark 0) 0) as [|Hnz]; [assumption|]. exfalso.
              assert (Hs' := same_sym idx j Hidx Hj Hs). apply (I6 j idx Hj Hidx Hnz) in Hs'. lia. }
            split; [exact Hz|]. destruct H3 as [(Hv & _)|(Hv & Hno)]; [exact Hv|]. exfalso.
            destruct Hs as [->|[Hnz Hc]]; [lia|]. apply Hne. specialize (Hno Hz Hc).
            destruct (Hdup j idx Hj Hidx Hno) as [|Hz0]; [assumption|]. rewrite Hno in Hz0. contradiction.
          + intros Hns. destruct H3 as [(Hv & Hz & Hna & Hc)|(Hv & _)]; [|exact Hv]. exfalso. apply Hns. right.
            split; [|exact Hc]. intros Ez. rewrite Ez in Hc, Hna. apply conj_0 in Hc. contradiction. }
      assert (Hdec : forall j, (j < length x)%nat -> same idx j \/ ~ same idx j).
      { intros j Hj. destruct (Nat.eq_dec j idx) as [->|Hne]; [left; left; reflexivity|].
        specialize (H3 j Hj). rewrite nth_upd_neq in H3 by exact Hne.
        destruct (Z.eq_dec (nth j mark 0) 0) as [Hz|Hnz].
        - destruct H3 as [(Hv & _ & Hna & Hc)|(Hv & Hno)].
          + left. right. split; [|exact Hc]. intros Ez. rewrite Ez in Hc, Hna. apply conj_0 in Hc. contradiction.
          + right. intros [->|[Hnz Hc]]; [lia|]. specialize (Hno Hz Hc).
            destruct (Hdup j idx Hj Hidx Hno) as [|Hz0]; [contradiction|]. rewrite Hno in Hz0. contradiction.
        - right. intros Hs. apply (same_sym idx j Hidx Hj) in Hs. apply (I6 j idx Hj Hidx Hnz) in Hs. lia. }
      apply IH; [lia|]. constructor.
      * exact H2.
      * lia.
      * intros j Hj. destruct (Hdec j Hj) as [Hs|Hs]; [rewrite (proj2 (proj1 (Hnew j Hj) Hs)); lia|].
        rewrite (proj2 (Hnew j Hj) Hs). specialize (I3 j Hj). lia.
      * intros j Hlt Hj. destruct (Hdec j Hj) as [Hs|Hs]; [rewrite (proj2 (proj1 (Hnew j Hj) Hs)); lia|].
        rewrite (proj2 (Hnew j Hj) Hs). destruct (Nat.eq_dec j idx) as [->|]; [exfalso; apply Hs; left; reflexivity|].
        apply I4; lia.
      * intros c Hc. destruct (Z.eq_dec c count) as [->|Hnc]; [exists idx; split; [exact Hidx|exact Hmidx]|].
        destruct (I5 c ltac:(lia)) as (j & Hj & Ej). exists j. split; [exact Hj|].
        destruct (Hdec j Hj) as [Hs|Hs]; [pose proof (proj1 (proj1 (Hnew j Hj) Hs)); lia|].
        rewrite (proj2 (Hnew j Hj) Hs). exact Ej.
      * intros i j Hi Hj Hnz.
        destruct (Hdec i Hi) as [Hsi|Hsi]; destruct (Hdec j Hj) as [Hsj|Hsj].
        -- rewrite (proj2 (proj1 (Hnew i Hi) Hsi)), (proj2 (proj1 (Hnew j Hj) Hsj)). split; [|reflexivity].
           intros _. apply (same_trans i idx j); [apply same_sym; assumption|exact Hsj].
        -- rewrite (proj2 (proj1 (Hnew i Hi) Hsi)), (proj2 (Hnew j Hj) Hsj). split.
           ++ intros E. specialize (I3 j Hj). lia.
           ++ intros Hs. exfalso. apply Hsj. eapply same_trans; eassumption.
        -- rewrite (proj2 (Hnew i Hi) Hsi) in *. rewrite (proj2 (proj1 (Hnew j Hj) Hsj)). split.
           ++ intros E. specialize (I3 i Hi). lia.
           ++ intros Hs. exfalso. apply Hsi. eapply same_trans; [exact Hsj|]. apply same_sym; assumption.
        -- rewrite (proj2 (Hnew i Hi) Hsi) in *. rewrite (proj2 (Hnew j Hj) Hsj). apply I6; assumption.
    + apply IH; [lia|]. constructor; try assumption. intros j Hlt Hj.
      destruct (Nat.eq_dec j idx) as [->|]; [exact E0|apply I4; lia].
Qed.

Lemma cosets_loop_run : exists mark count, cosets_loop m (seq 0 (length x)) x (repeat 0 (length x)) 1 = Ok (mark, count) /\
  inv (length x) mark count.
Proof.
  apply cosets_loop_spec; [lia|]. constructor.
  - apply repeat_length.
  - lia.
  - intros j Hj. rewrite nth_repeat_same. lia.
  - intros j Hj. lia.
  - intros c Hc. lia.
  - intros i j Hi Hj Hn. rewrite nth_repeat_same in Hn. contradiction.
Qed.
End Cosets.

(* selecting by mark partitions the elements *)
Lemma select_marked_In es mark c e : length es = length mark ->
  (In e (select_marked es mark c) <-> exists j, (j < length es)%nat /\ nth j es 0 = e /\ nth j mark 0 = c).
Proof.
  intros Hl. unfold select_marked. rewrite in_map_iff. split.
  - intros ([e' c'] & E & Hin). cbn in E. subst e'. apply filter_In in Hin. destruct Hin as [Hin Hc]. cbn in Hc.
    apply Z.eqb_eq in Hc. subst c'. apply (In_nth _ _ (0, 0)) in Hin. destruct Hin as (j & Hj & E).
    rewrite combine_length in Hj. rewrite combine_nth in E by exact Hl. exists j. injection E as E1 E2. repeat split; try assumption. lia.
  - intros (j & Hj & E1 & E2). exists (e, c). split; [reflexivity|]. apply filter_In. split; [|apply Z.eqb_refl].
    rewrite <- E1, <- E2, <- combine_nth by exact Hl. apply nth_In. rewrite combine_length. lia.
Qed.

Lemma perm_select (es mark : list Z) n : length es = length mark -> Forall (fun v => 1 <= v < 1 + Z.of_nat n) mark ->
  Permutation (concat (map (fun c => select_marked es mark (Z.of_nat c)) (seq 1 n))) es.
Proof.
  intros Hl Hm. assert (E : es = map fst (combine es mark)).
  { clear Hm. revert mark Hl; induction es as [|e es IH]; intros [|k mark] Hl; cbn [length] in Hl; try lia; [reflexivity|].
    cbn [combine map fst]. f_equal. apply IH. lia. }
  transitivity (map fst (combine es mark)); [|rewrite <- E; reflexivity]. clear E. unfold select_marked.
  assert (Hc : Forall (fun em : Z * Z => 1 <= snd em < 1 + Z.of_nat n) (combine es mark)).
  { apply Forall_forall. intros [a b] Hin. apply in_combine_r in Hin. rewrite Forall_forall in Hm. apply Hm, Hin. }
  generalize dependent (combine es mark). intros l Hc. clear -Hc.
  revert l Hc; induction n as [|n IH]; intros l Hc.
  - destruct l as [|e l]; [constructor|]. inversion Hc; subst. lia.
  - rewrite seq_S, map_app, concat_app. cbn [map concat]. rewrite app_nil_r.
    set (last := Z.of_nat (1 + n)).
    assert (Hsplit : Permutation l (filter (fun em => negb (snd em =? last)) l ++ filter (fun em => snd em =? last) l)).
    { clear. induction l as [|e l IHl]; [constructor|]. cbn [filter]. destruct (snd e =? last); cbn [negb].
      - apply Permutation_cons_app. exact IHl.
      - cbn [app]. constructor. exact IHl. }
    transitivity (map fst (filter (fun em => negb (snd em =? last)) l ++ filter (fun em => snd em =? last) l)); [|apply Permutation_map; symmetry; exact Hsplit].
    rewrite map_app. apply Permutation_app; [|reflexivity].
    rewrite <- (IH (filter (fun em => negb (snd em =? last)) l)).
    + match goal with |- Permutation ?a ?b => replace a with b; [reflexivity|] end. f_equal. apply map_ext_in. intros c Hcin. apply in_seq in Hcin. f_equal.
      clear -Hcin. induction l as [|e l IHl]; [reflexivity|]. cbn [filter]. destruct (Z.eqb_spec (snd e) last) as [E|E]; cbn [negb filter].
      * rewrite IHl. destruct (Z.eqb_spec (snd e) (Z.of_nat c)) as [E'|E']; [unfold last in E; lia|reflexivity].
      * rewrite IHl. reflexivity.
    + apply Forall_forall. intros e He. apply filter_In in He. destruct He as [He Hne]. rewrite Forall_forall in Hc. specialize (Hc e He).
      unfold last in Hne. lia.
Qed.
