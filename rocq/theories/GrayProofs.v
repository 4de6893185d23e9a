(* The Gray code sequence and argsort. *)
From Coq Require Import Permutation Sorted.
From Verif Require Import Base UtilModel Cplx ModemModel ModemSpec.
Open Scope Z_scope.

Definition gray (i : Z) : Z := Z.lxor i (Z.shiftr i 1).

Lemma gray_step : forall i, gray (i + 1) = Z.lxor (gray i) (Z.lxor (Z.lxor i (i + 1)) (Z.shiftr (Z.lxor i (i + 1)) 1)).
Proof.
  intros i. unfold gray. rewrite Z.shiftr_lxor. apply Z.bits_inj'. intros p Hp. rewrite !Z.lxor_spec.
  destruct (Z.testbit i p), (Z.testbit (i + 1) p), (Z.testbit (Z.shiftr i 1) p), (Z.testbit (Z.shiftr (i + 1) 1) p); reflexivity.
Qed.

Lemma gray_loop_map : forall c i, gray_loop c i (gray i) = map (fun k => gray (i + Z.of_nat k)) (seq 0 c).
Proof.
  induction c as [|c IH]; intros i; [reflexivity|]. cbn [gray_loop seq map]. cbv zeta. rewrite <- gray_step. f_equal; [f_equal; lia|].
  rewrite IH, <- seq_shift, map_map. apply map_ext. intros k. f_equal. lia.
Qed.

Lemma gray_sequence_map : forall b, gray_sequence b = map (fun k => gray (Z.of_nat k)) (seq 0 (2 ^ b)).
Proof. intros b. unfold gray_sequence. change 0 with (gray 0) at 2. rewrite gray_loop_map. apply map_ext. intros k. f_equal. Qed.

Lemma gray_testbit : forall i p, 0 <= p -> Z.testbit (gray i) p = xorb (Z.testbit i p) (Z.testbit i (p + 1)).
Proof. intros i p Hp. unfold gray. rewrite Z.lxor_spec, Z.shiftr_spec by exact Hp. reflexivity. Qed.

Lemma testbit_ge : forall b i p, 0 <= b -> 0 <= i < 2 ^ b -> b <= p -> Z.testbit i p = false.
Proof.
  intros b i p Hb Hi Hp. destruct (Z.eq_dec i 0) as [->|Hn]; [apply Z.testbit_0_l|]. apply Z.bits_above_log2; [lia|].
  assert (Z.log2 i < b) by (apply Z.log2_lt_pow2; lia). lia.
Qed.

Lemma range_testbit : forall b i, 0 <= b -> 0 <= i -> (forall p, b <= p -> Z.testbit i p = false) -> i < 2 ^ b.
Proof.
  intros b i Hb Hi H. destruct (Z.eq_dec i 0) as [->|Hn]; [apply Z.pow_pos_nonneg; lia|].
  apply Z.log2_lt_pow2; [lia|]. destruct (Z_lt_ge_dec (Z.log2 i) b) as [Hl|Hl]; [exact Hl|]. specialize (H (Z.log2 i) ltac:(lia)).
  rewrite Z.bit_log2 in H by lia. discriminate.
Qed.

Lemma gray_nonneg : forall i, 0 <= i -> 0 <= gray i.
Proof. intros i Hi. unfold gray. apply Z.lxor_nonneg. split; intros; [apply Z.shiftr_nonneg|]; exact Hi. Qed.

Lemma gray_range : forall b i, 0 <= b -> 0 <= i < 2 ^ b -> 0 <= gray i < 2 ^ b.
Proof.
  intros b i Hb Hi. split; [apply gray_nonneg; lia|]. apply range_testbit; [exact Hb|apply gray_nonneg; lia|]. intros p Hp.
  rewrite gray_testbit, !(testbit_ge b) by lia. reflexivity.
Qed.

Lemma gray_inj : forall b i j, 0 <= b -> 0 <= i < 2 ^ b -> 0 <= j < 2 ^ b -> gray i = gray j -> i = j.
Proof.
  intros b i j Hb Hi Hj E. assert (P : forall k : nat, forall p, b - Z.of_nat k <= p -> 0 <= p -> Z.testbit i p = Z.testbit j p).
  { induction k as [|k IH]; intros p Hp Hp0; [rewrite !(testbit_ge b) by lia; reflexivity|].
    pose proof (f_equal (fun z => Z.testbit z p) E) as Eb. cbn beta in Eb. rewrite !gray_testbit in Eb by exact Hp0.
    rewrite (IH (p + 1)) in Eb by lia. destruct (Z.testbit i p), (Z.testbit j p), (Z.testbit j (p + 1)); cbn in Eb; congruence. }
  apply Z.bits_inj'. intros p Hp. apply (P (Z.to_nat b)); lia.
Qed.

(* labels of neighbours *)

Lemma one_bit_lxor : forall x y q, 0 <= q -> Z.lxor x y = 2 ^ q -> one_bit_apart x y.
Proof.
  intros x y q Hq E. exists q. split; [exact Hq|]. intros p Hp. pose proof (f_equal (fun z => Z.testbit z p) E) as Eb. cbn beta in Eb.
  rewrite Z.lxor_spec, Z.pow2_bits_eqb in Eb by exact Hq. destruct (Z.eqb_spec q p) as [->|Hne].
  - split; [reflexivity|]. intros _ F. rewrite F, xorb_nilpotent in Eb. discriminate.
  - split; intros F; [|congruence]. exfalso. apply F. destruct (Z.testbit x p), (Z.testbit y p); cbn in Eb; congruence.
Qed.

(* i xor (i + 1) is a block of ones, so consecutive Gray numbers differ in one bit *)
Lemma lxor_succ : forall i, 0 <= i -> exists q, 0 <= q /\ Z.lxor i (i + 1) = 2 ^ (q + 1) - 1.
Proof.
  intros i Hi. apply (Z_lt_induction (fun i => 0 <= i -> exists q, 0 <= q /\ Z.lxor i (i + 1) = 2 ^ (q + 1) - 1)); [|exact Hi|exact Hi]. clear i Hi.
  intros i IH Hi. destruct (Z.Even_or_Odd i) as [[k Hk]|[k Hk]].
  - exists 0. split; [lia|]. subst i. change (2 ^ (0 + 1) - 1) with (2 * 0 + 1). apply Z.bits_inj'. intros p Hp. destruct (Z.eq_dec p 0) as [->|Hp0].
    + rewrite Z.lxor_spec, !Z.testbit_odd_0, Z.testbit_even_0. reflexivity.
    + replace p with (Z.succ (p - 1)) by lia. rewrite Z.lxor_spec, !Z.testbit_odd_succ, Z.testbit_even_succ, xorb_nilpotent, Z.testbit_0_l by lia. reflexivity.
  - destruct (IH k ltac:(lia) ltac:(lia)) as (q & Hq & E). exists (q + 1). split; [lia|]. replace (i + 1) with (2 * (k + 1)) by lia. rewrite Hk.
    assert (D : Z.lxor (2 * k + 1) (2 * (k + 1)) = 2 * Z.lxor k (k + 1) + 1).
    { apply Z.bits_inj'. intros p Hp. destruct (Z.eq_dec p 0) as [->|Hp0].
      - rewrite Z.lxor_spec, !Z.testbit_odd_0, Z.testbit_even_0. reflexivity.
      - replace p with (Z.succ (p - 1)) by lia. rewrite Z.lxor_spec, !Z.testbit_odd_succ, Z.testbit_even_succ, Z.lxor_spec by lia. reflexivity. }
    rewrite D, E. rewrite (Z.pow_add_r 2 (q + 1) 1) by lia. lia.
Qed.

Lemma gray_neighbours : forall i, 0 <= i -> one_bit_apart (gray i) (gray (i + 1)).
Proof.
  intros i Hi. destruct (lxor_succ i Hi) as (q & Hq & E). apply (one_bit_lxor _ _ q Hq). rewrite gray_step, <- Z.lxor_assoc, Z.lxor_nilpotent, Z.lxor_0_l, E.
  apply Z.bits_inj'. intros p Hp. rewrite Z.lxor_spec, Z.shiftr_spec, Z.pow2_bits_eqb by lia.
  replace (2 ^ (q + 1) - 1) with (Z.ones (q + 1)) by (rewrite Z.ones_equiv; lia).
  destruct (Z_lt_ge_dec p (q + 1)) as [H1|H1]; [rewrite (Z.ones_spec_low _ p) by lia|rewrite (Z.ones_spec_high _ p) by lia];
  (destruct (Z_lt_ge_dec (p + 1) (q + 1)) as [H2|H2]; [rewrite (Z.ones_spec_low _ (p + 1)) by lia|rewrite (Z.ones_spec_high _ (p + 1)) by lia]); cbn [xorb]; lia.
Qed.

Lemma gray_0 : gray 0 = 0. Proof. reflexivity. Qed.
Lemma gray_last : forall b, 0 <= b -> gray (2 ^ (b + 1) - 1) = 2 ^ b.
Proof.
  intros b Hb. replace (2 ^ (b + 1) - 1) with (Z.ones (b + 1)) by (rewrite Z.ones_equiv; lia).
  apply Z.bits_inj'. intros p Hp. rewrite gray_testbit, Z.pow2_bits_eqb by lia.
  destruct (Z_lt_ge_dec p (b + 1)) as [H1|H1]; [rewrite (Z.ones_spec_low _ p) by lia|rewrite (Z.ones_spec_high _ p) by lia];
  (destruct (Z_lt_ge_dec (p + 1) (b + 1)) as [H2|H2]; [rewrite (Z.ones_spec_low _ (p + 1)) by lia|rewrite (Z.ones_spec_high _ (p + 1)) by lia]); cbn [xorb]; lia.
Qed.

Lemma gray_wrap : forall b, 0 <= b -> one_bit_apart (gray (2 ^ (b + 1) - 1)) (gray 0).
Proof. intros b Hb. apply (one_bit_lxor _ _ b Hb). rewrite gray_last, gray_0, Z.lxor_0_r by exact Hb. reflexivity. Qed.

(* splitting an index into a high and a low part; the low half is mirrored when the high part is odd *)
Lemma testbit_split : forall p a c j, 0 <= p -> 0 <= c < 2 ^ p -> 0 <= j -> Z.testbit (a * 2 ^ p + c) j = if j <? p then Z.testbit c j else Z.testbit a (j - p).
Proof.
  intros p a c j Hp Hc Hj. destruct (Z.ltb_spec j p) as [H|H].
  - rewrite <- (Z.mod_pow2_bits_low _ p j) by lia. rewrite Z.add_comm, Z_mod_plus_full, Z.mod_small by lia. reflexivity.
  - replace j with ((j - p) + p) at 1 by lia. rewrite <- Z.div_pow2_bits by lia. rewrite Z.add_comm, Z_div_plus_full, Z.div_small by lia. rewrite Z.add_0_l. reflexivity.
Qed.

Lemma mirror_testbit : forall p c j, 0 <= p -> 0 <= c < 2 ^ p -> 0 <= j -> Z.testbit (2 ^ p - 1 - c) j = if j <? p then negb (Z.testbit c j) else false.
Proof.
  intros p c j Hp Hc Hj. replace (2 ^ p - 1 - c) with (Z.ldiff (Z.ones p) c).
  - rewrite Z.ldiff_spec. destruct (Z.ltb_spec j p) as [H|H]; [rewrite Z.ones_spec_low by lia|rewrite Z.ones_spec_high by lia]; reflexivity.
  - assert (Hd : Z.ldiff c (Z.ones p) = 0).
    { apply Z.bits_inj'. intros q Hq. rewrite Z.ldiff_spec, Z.testbit_0_l. destruct (Z_lt_ge_dec q p); [rewrite Z.ones_spec_low by lia; destruct (Z.testbit c q); reflexivity|rewrite (testbit_ge p c) by lia; reflexivity]. }
    rewrite <- Z.sub_nocarry_ldiff by exact Hd. rewrite Z.ones_equiv. lia.
Qed.

Lemma gray_split_even : forall p a c, 0 <= p -> 0 <= c < 2 ^ p -> Z.Even a -> gray (a * 2 ^ p + c) = gray a * 2 ^ p + gray c.
Proof.
  intros p a c Hp Hc Ha. apply Z.bits_inj'. intros j Hj. pose proof (gray_range p c Hp Hc). rewrite gray_testbit by exact Hj. rewrite !testbit_split by lia. rewrite !gray_testbit by lia.
  destruct (Z.ltb_spec j p); destruct (Z.ltb_spec (j + 1) p).
  - reflexivity.
  - replace (j + 1 - p) with 0 by lia. destruct Ha as [q ->]. rewrite Z.testbit_even_0. rewrite (testbit_ge p c (j + 1)) by lia. reflexivity.
  - lia.
  - rewrite gray_testbit by lia. do 2 f_equal; lia.
Qed.

Lemma gray_split_odd : forall p a c, 0 <= p -> 0 <= c < 2 ^ p -> Z.Odd a -> gray (a * 2 ^ p + (2 ^ p - 1 - c)) = gray a * 2 ^ p + gray c.
Proof.
  intros p a c Hp Hc Ha. apply Z.bits_inj'. intros j Hj. pose proof (gray_range p c Hp Hc). rewrite gray_testbit by exact Hj. rewrite !testbit_split by lia. rewrite !mirror_testbit, !gray_testbit by lia.
  destruct (Z.ltb_spec j p); destruct (Z.ltb_spec (j + 1) p).
  - destruct (Z.testbit c j), (Z.testbit c (j + 1)); reflexivity.
  - replace (j + 1 - p) with 0 by lia. destruct Ha as [q ->]. rewrite Z.testbit_odd_0. rewrite (testbit_ge p c (j + 1)) by lia. destruct (Z.testbit c j); reflexivity.
  - lia.
  - rewrite gray_testbit by lia. do 2 f_equal; lia.
Qed.

(* ---------------------------------------------------------------- argsort *)
Lemma insert_key_perm : forall k l, Permutation (insert_key k l) (k :: l).
Proof. intros k l. induction l as [|x l IH]; cbn [insert_key]; [reflexivity|]. destruct (fst k <=? fst x); [reflexivity|]. rewrite IH. apply perm_swap. Qed.
Lemma sort_perm : forall l, Permutation (fold_right insert_key [] l) l.
Proof. induction l as [|x l IH]; cbn [fold_right]; [reflexivity|]. rewrite insert_key_perm, IH. reflexivity. Qed.
Lemma insert_key_sorted : forall k l, StronglySorted (fun a b => fst a <= fst b) l -> StronglySorted (fun a b : Z * nat => fst a <= fst b) (insert_key k l).
Proof.
  intros k l H. induction H as [|x l Hs IH Hx]; cbn [insert_key]; [repeat constructor|]. destruct (Z.leb_spec (fst k) (fst x)).
  - constructor; [constructor; assumption|]. constructor; [assumption|]. apply Forall_forall. intros y Hy. rewrite Forall_forall in Hx. specialize (Hx y Hy). lia.
  - constructor; [exact IH|]. apply Forall_forall. intros y Hy. apply (Permutation_in _ (insert_key_perm k l)) in Hy. destruct Hy as [<-|Hy]; [lia|]. rewrite Forall_forall in Hx. apply Hx, Hy.
Qed.
Lemma sort_sorted : forall l, StronglySorted (fun a b => fst a <= fst b) (fold_right insert_key [] l).
Proof. induction l as [|x l IH]; cbn [fold_right]; [constructor|]. apply insert_key_sorted, IH. Qed.

Lemma strict_count : forall l lo hi, StronglySorted Z.lt l -> (forall x, In x l -> lo <= x < hi) -> lo <= hi -> Z.of_nat (length l) <= hi - lo.
Proof.
  induction l as [|x l IH]; intros lo hi Hs Hr Hlh; cbn [length]; [lia|]. inversion Hs as [|y l' Hs' Hx]; subst. pose proof (Hr x (or_introl eq_refl)).
  rewrite Forall_forall in Hx. specialize (IH (x + 1) hi Hs' ltac:(intros y Hy; specialize (Hx y Hy); specialize (Hr y (or_intror Hy)); lia) ltac:(lia)). lia.
Qed.
Lemma strict_full : forall l lo, StronglySorted Z.lt l -> (forall x, In x l -> lo <= x < lo + Z.of_nat (length l)) -> forall v, (v < length l)%nat -> nth v l 0 = lo + Z.of_nat v.
Proof.
  induction l as [|x l IH]; intros lo Hs Hr v Hv; [cbn in Hv; lia|]. inversion Hs as [|y l' Hs' Hx]; subst. rewrite Forall_forall in Hx. pose proof (Hr x (or_introl eq_refl)) as H0. cbn [length] in H0, Hr, Hv.
  pose proof (strict_count l (x + 1) (lo + Z.of_nat (S (length l))) Hs' ltac:(intros y Hy; specialize (Hx y Hy); specialize (Hr y (or_intror Hy)); lia) ltac:(lia)) as HC.
  assert (x = lo) by lia. subst x. destruct v as [|v]; cbn [nth]; [lia|]. rewrite (IH (lo + 1) Hs'); [lia| |lia]. intros y Hy. specialize (Hx y Hy). specialize (Hr y (or_intror Hy)). lia.
Qed.

(* on a permutation of 0 .. n-1 argsort is the inverse permutation *)
Lemma argsort_inverse : forall l, NoDup l -> (forall x, In x l -> 0 <= x < Z.of_nat (length l)) ->
  length (argsort l) = length l /\ Permutation (argsort l) (seq 0 (length l)) /\
  forall v, (v < length l)%nat -> (nth v (argsort l) 0%nat < length l)%nat /\ nth (nth v (argsort l) 0%nat) l 0 = Z.of_nat v.
Proof.
  intros l ND Hr. unfold argsort. set (kl := combine l (seq 0 (length l))). set (s := fold_right insert_key [] kl).
  assert (HP : Permutation s kl) by apply sort_perm. assert (HS := sort_sorted kl). fold s in HS.
  assert (Hlen : length kl = length l) by (unfold kl; rewrite combine_length, seq_length; lia).
  assert (Hls : length s = length l) by (rewrite (Permutation_length HP); exact Hlen).
  assert (Hf : map fst kl = l).
  { unfold kl. clear. generalize 0%nat. induction l as [|x l IH]; intros n; cbn; [reflexivity|]. f_equal. apply IH. }
  assert (Hsn : map snd kl = seq 0 (length l)).
  { unfold kl. clear. generalize 0%nat. induction l as [|x l IH]; intros n; cbn; [reflexivity|]. f_equal. apply IH. }
  split; [rewrite map_length; exact Hls|]. split; [rewrite <- Hsn; apply Permutation_map, HP|]. intros v Hv.
  assert (HPf : Permutation (map fst s) l) by (rewrite <- Hf; apply Permutation_map, HP).
  assert (HSf : StronglySorted Z.lt (map fst s)).
  { assert (NDs : NoDup (map fst s)) by (eapply Permutation_NoDup; [symmetry; exact HPf|exact ND]). clear - HS NDs. induction HS as [|x s Hs IH Hx]; cbn [map] in *; [constructor|].
    inversion NDs; subst. constructor; [apply IH; assumption|]. apply Forall_forall. intros y Hy. apply in_map_iff in Hy as (z & <- & Hz). rewrite Forall_forall in Hx. specialize (Hx z Hz).
    assert (fst x <> fst z) by (intros E; apply H1; rewrite E; apply in_map, Hz). lia. }
  assert (Hk : nth v (map fst s) 0 = 0 + Z.of_nat v).
  { apply strict_full; [exact HSf| |rewrite map_length; lia]. intros x Hx. rewrite map_length, Hls. specialize (Hr x (Permutation_in _ HPf Hx)). lia. }
  set (e := nth v s (0, 0%nat)). assert (He : In e kl) by (apply (Permutation_in _ HP), nth_In; lia).
  assert (E1 : nth v (map snd s) 0%nat = snd e) by (unfold e; rewrite <- (map_nth snd); reflexivity).
  assert (E2 : fst e = Z.of_nat v) by (unfold e; rewrite <- (map_nth fst); cbn [fst]; rewrite Hk; lia).
  rewrite E1. destruct (In_nth _ _ (0, 0%nat) He) as (i & Hi & Hie). rewrite Hlen in Hi.
  assert (Ei : e = (nth i l 0, i)).
  { rewrite <- Hie. unfold kl. rewrite combine_nth by (rewrite seq_length; reflexivity). rewrite seq_nth by exact Hi. reflexivity. }
  rewrite Ei in E2 |- *. cbn [fst snd] in *. split; [exact Hi|exact E2].
Qed.
