(* Shift-register codes: linearity, polynomial multiplication, termination, incoming branches. *)
From Verif Require Import Base UtilModel UtilProofs TrellisModel TrellisSpec TrellisProofs FloatRate ConvProofs.
From Coq Require Import Permutation.

Section Code.
Variable C : code.
Hypothesis WF : well_formed C.
Local Notation k := (kk C).
Local Notation M := (MM C).
Local Notation n := (outs C).
Local Notation nf := (next_f C).
Local Notation of_ := (out_f C).
Local Notation cellC := (cell (memory C)).

Lemma valid_the_trellis rsc : (1 <= n)%nat -> valid_trellis (the_trellis C rsc).
Proof.
  intros Hn. split; [exact (k_pos C WF)|]. split; [exact Hn|]. intros s u Hs Hu. cbn [the_trellis tr_M tr_k tr_n tr_next tr_out] in *.
  rewrite !table_get_f, !table_entry by assumption. repeat split; try apply next_f_range; apply out_f_range.
Qed.

Lemma entry_next rsc s u : 0 <= s < 2 ^ Z.of_nat M -> 0 <= u < 2 ^ Z.of_nat k -> entry (tr_next (the_trellis C rsc)) s u = nf s u.
Proof. intros. apply table_entry; assumption. Qed.
Lemma entry_out rsc s u : 0 <= s < 2 ^ Z.of_nat M -> 0 <= u < 2 ^ Z.of_nat k -> entry (tr_out (the_trellis C rsc)) s u = of_ s u.
Proof. intros. apply table_entry; assumption. Qed.

Definition urange (us : list Z) := Forall (fun u => 0 <= u < 2 ^ Z.of_nat k) us.

Lemma walk_the rsc us : forall s, 0 <= s < 2 ^ Z.of_nat M -> urange us -> walk (entry (tr_next (the_trellis C rsc))) s us = walk nf s us.
Proof.
  induction us as [|u us IH]; intros s Hs Hu; [reflexivity|]. inversion Hu; subst. cbn [walk]. rewrite entry_next by assumption.
  apply IH; [apply next_f_range|assumption].
Qed.
Lemma emit_the rsc us : forall s, 0 <= s < 2 ^ Z.of_nat M -> urange us ->
  emit (entry (tr_next (the_trellis C rsc))) (entry (tr_out (the_trellis C rsc))) s us = emit nf of_ s us.
Proof.
  induction us as [|u us IH]; intros s Hs Hu; [reflexivity|]. inversion Hu; subst. cbn [emit]. rewrite entry_next, entry_out by assumption.
  f_equal. apply IH; [apply next_f_range|assumption].
Qed.

Lemma zero_range : 0 <= 0 < 2 ^ Z.of_nat M. Proof. split; [lia|apply Z.pow_pos_nonneg; lia]. Qed.

Lemma cell_u s u u' c d : (1 <= d)%nat -> cellC s u c d = cellC s u' c d.
Proof. intros H. unfold cell. replace (d =? 0)%nat with false by lia. reflexivity. Qed.

Lemma walk_nf_range us : forall s, 0 <= s < 2 ^ Z.of_nat M -> 0 <= walk nf s us < 2 ^ Z.of_nat M.
Proof. induction us as [|u us IH]; intros s Hs; [exact Hs|]. cbn [walk]. apply IH, next_f_range. Qed.

(* ---------------------------------------------------------------- linearity *)
Lemma cell_xor s s' u u' c d : cellC (Z.lxor s s') (Z.lxor u u') c d = xorb (cellC s u c d) (cellC s' u' c d).
Proof. unfold cell. destruct (d =? 0)%nat; apply Z.lxor_spec. Qed.

Lemma line_sum_xor (f g : nat -> nat -> bool) : line_sum C (fun i d => xorb (f i d) (g i d)) = xorb (line_sum C f) (line_sum C g).
Proof. unfold line_sum. rewrite <- xsum_xor. apply xsum_ext. intros i _. apply xsum_xor. Qed.

Lemma line_sum_ext (f g : nat -> nat -> bool) : (forall i d, (i < k)%nat -> (d <= mem C i)%nat -> f i d = g i d) -> line_sum C f = line_sum C g.
Proof. intros H. unfold line_sum. apply xsum_ext. intros i Hi. apply in_seq in Hi. apply xsum_ext. intros d Hd. apply in_seq in Hd. apply H; lia. Qed.

Lemma andb_xorb_l a b c : (xorb a b && c) = xorb (a && c) (b && c). Proof. destruct a, b, c; reflexivity. Qed.

Lemma lxor_range a b m : 0 <= a < 2 ^ Z.of_nat m -> 0 <= b < 2 ^ Z.of_nat m -> 0 <= Z.lxor a b < 2 ^ Z.of_nat m.
Proof.
  intros Ha Hb. assert (H0 : 0 <= Z.lxor a b) by (apply Z.lxor_nonneg; lia). split; [exact H0|].
  destruct (Z.eq_dec a 0) as [Ea|Ea]; [subst a; rewrite Z.lxor_0_l; lia|].
  destruct (Z.eq_dec b 0) as [Eb|Eb]; [subst b; rewrite Z.lxor_0_r; lia|].
  destruct (Z.eq_dec (Z.lxor a b) 0) as [Ex|Hne]; [rewrite Ex; lia|]. apply Z.log2_lt_pow2; [lia|].
  pose proof (Z.log2_lxor a b ltac:(lia) ltac:(lia)) as Hl.
  assert (Z.log2 a < Z.of_nat m) by (apply Z.log2_lt_pow2; lia).
  assert (Z.log2 b < Z.of_nat m) by (apply Z.log2_lt_pow2; lia). lia.
Qed.

Lemma next_f_xor s s' u u' : nf (Z.lxor s s') (Z.lxor u u') = Z.lxor (nf s u) (nf s' u').
Proof.
  apply (states_ext C); [apply next_f_range|apply lxor_range; apply next_f_range|]. intros c d Hc Hd.
  rewrite next_f_cell by assumption. change 0 with (Z.lxor 0 0). rewrite cell_xor, !next_f_cell by assumption. unfold newcell.
  destruct (d =? 1)%nat; [|apply cell_xor]. rewrite <- line_sum_xor. apply line_sum_ext. intros i e _ _. rewrite cell_xor. apply andb_xorb_l.
Qed.
Lemma out_f_xor s s' u u' : of_ (Z.lxor s s') (Z.lxor u u') = Z.lxor (of_ s u) (of_ s' u').
Proof.
  apply (outs_ext C n); [apply out_f_range|apply lxor_range; apply out_f_range|]. intros j Hj.
  rewrite Z.lxor_spec, !out_f_bit by assumption. rewrite <- line_sum_xor. apply line_sum_ext. intros i e _ _. rewrite cell_xor. apply andb_xorb_l.
Qed.

Lemma xorl_cons x a y b : xorl (x :: a) (y :: b) = Z.lxor x y :: xorl a b. Proof. reflexivity. Qed.
Lemma xorl_length a b : length a = length b -> length (xorl a b) = length a.
Proof. intros H. unfold xorl. rewrite map_length. apply combine_length_eq. exact H. Qed.
Lemma xorl_nth a : forall b i, length a = length b -> nth i (xorl a b) 0 = Z.lxor (nth i a 0) (nth i b 0).
Proof.
  induction a as [|x a IH]; intros [|y b] i H; cbn [length] in H; try lia; [destruct i; reflexivity|].
  rewrite xorl_cons. destruct i as [|i]; [reflexivity|]. cbn [nth]. apply IH. lia.
Qed.
Lemma xorl_app a : forall b a' b', length a = length b -> xorl (a ++ a') (b ++ b') = xorl a b ++ xorl a' b'.
Proof. induction a as [|x a IH]; intros [|y b] a' b' H; cbn [length] in H; try lia; [reflexivity|]. cbn [app]. rewrite !xorl_cons. cbn [app]. f_equal. apply IH. lia. Qed.
Lemma xorl_bits a b : length a = length b -> bits a -> bits b -> bits (xorl a b).
Proof.
  intros Hl Ha Hb. apply bits_of_nth. intros i Hi. rewrite xorl_nth by exact Hl.
  destruct (bits_nth a i Ha) as [-> | ->], (bits_nth b i Hb) as [-> | ->]; [left|right|right|left]; reflexivity.
Qed.
Lemma xorl_zeros m : xorl (repeat 0 m) (repeat 0 m) = repeat 0 m.
Proof. induction m as [|m IH]; [reflexivity|]. cbn [repeat]. rewrite xorl_cons, IH. reflexivity. Qed.

Lemma walk_xor us : forall us' s s', length us = length us' -> walk nf (Z.lxor s s') (xorl us us') = Z.lxor (walk nf s us) (walk nf s' us').
Proof. induction us as [|u us IH]; intros [|u' us'] s s' H; cbn [length] in H; try lia; [reflexivity|]. rewrite xorl_cons. cbn [walk]. rewrite next_f_xor. apply IH. lia. Qed.
Lemma emit_xor us : forall us' s s', length us = length us' -> emit nf of_ (Z.lxor s s') (xorl us us') = xorl (emit nf of_ s us) (emit nf of_ s' us').
Proof.
  induction us as [|u us IH]; intros [|u' us'] s s' H; cbn [length] in H; try lia; [reflexivity|]. rewrite xorl_cons. cbn [emit].
  rewrite next_f_xor, out_f_xor, xorl_cons. f_equal. apply IH. lia.
Qed.

Lemma bits_msb_xor m a b : bits_msb m (Z.lxor a b) = xorl (bits_msb m a) (bits_msb m b).
Proof.
  apply nth_ext_Z; [rewrite xorl_length; rewrite !bits_msb_length; reflexivity|]. intros i Hi. rewrite bits_msb_length in Hi.
  rewrite xorl_nth by (rewrite !bits_msb_length; reflexivity). rewrite !bits_msb_nth by exact Hi. rewrite Z.lxor_spec.
  destruct (Z.testbit a _), (Z.testbit b _); reflexivity.
Qed.
Lemma bitstream_xor m ws : forall ws', length ws = length ws' -> bitstream m (xorl ws ws') = xorl (bitstream m ws) (bitstream m ws').
Proof.
  induction ws as [|w ws IH]; intros [|w' ws'] H; cbn [length] in H; try lia; [reflexivity|]. rewrite xorl_cons. unfold bitstream. cbn [map concat].
  fold (bitstream m ws) (bitstream m ws') (bitstream m (xorl ws ws')). rewrite IH by lia. rewrite xorl_app by (rewrite !bits_msb_length; reflexivity).
  rewrite bits_msb_xor. reflexivity.
Qed.

Lemma b2d_xor a : forall b, length a = length b -> bits a -> bits b -> bitarray2dec (xorl a b) = Z.lxor (bitarray2dec a) (bitarray2dec b).
Proof.
  intros b Hl Ha Hb. pose proof (xorl_bits a b Hl Ha Hb) as Hx. pose proof (xorl_length a b Hl) as Hlx.
  pose proof (bitarray2dec_range _ Ha) as Ra. pose proof (bitarray2dec_range _ Hb) as Rb. pose proof (bitarray2dec_range _ Hx) as Rx.
  rewrite Hlx in Rx. rewrite <- Hl in Rb.
  rewrite <- (Z.mod_small (bitarray2dec (xorl a b)) (2 ^ Z.of_nat (length a)) Rx).
  rewrite <- (Z.mod_small (Z.lxor _ _) (2 ^ Z.of_nat (length a)) (lxor_range _ _ _ Ra Rb)).
  rewrite <- !b2d_bits_msb. f_equal. rewrite bits_msb_xor. rewrite (bits_msb_b2d a Ha). rewrite Hl at 2. rewrite (bits_msb_b2d b Hb).
  rewrite <- Hlx. apply bits_msb_b2d. exact Hx.
Qed.

Lemma slice_xorl a b lo hi : length a = length b -> slice (xorl a b) lo hi = xorl (slice a lo hi) (slice b lo hi).
Proof.
  intros Hl. assert (Hs : length (slice a lo hi) = length (slice b lo hi)) by (unfold slice; rewrite !firstn_length, !skipn_length, Hl; reflexivity).
  assert (Hs2 : length (slice (xorl a b) lo hi) = length (slice a lo hi)) by (unfold slice; rewrite !firstn_length, !skipn_length, xorl_length by exact Hl; reflexivity).
  apply nth_ext_Z; [rewrite xorl_length by exact Hs; exact Hs2|]. intros i Hi. rewrite xorl_nth by exact Hs.
  assert (i < hi - lo)%nat by (pose proof (slice_len_le (xorl a b) lo hi); lia). rewrite !slice_nth by assumption. apply xorl_nth. exact Hl.
Qed.

Lemma symbols_xor tr a b : length a = length b -> bits a -> bits b -> symbols tr (xorl a b) = xorl (symbols tr a) (symbols tr b).
Proof.
  intros Hl Ha Hb. apply nth_ext_Z; [rewrite xorl_length; rewrite !symbols_length, ?xorl_length; congruence|].
  intros t Ht. rewrite symbols_length, xorl_length in Ht by exact Hl. rewrite xorl_nth by (rewrite !symbols_length; congruence).
  unfold symbols. rewrite xorl_length by exact Hl. rewrite <- Hl. rewrite !nth_map_seq by exact Ht. rewrite slice_xorl by exact Hl.
  apply b2d_xor; [unfold slice; rewrite !firstn_length, !skipn_length, Hl; reflexivity|apply bits_slice; assumption|apply bits_slice; assumption].
Qed.

(* ---------------------------------------------------------------- feed-forward: the state is the input history *)
Lemma ff_new s u c : fback C = None -> (c < k)%nat -> newcell C s u c 1 = cellC s u c 0.
Proof.
  intros Hf Hc. unfold newcell. cbn [Nat.eqb]. unfold line_sum. unfold fcoef. rewrite Hf.
  rewrite (xsum_single _ k c Hc).
  - rewrite (xsum_single _ (S (mem C c)) 0); [rewrite !Nat.eqb_refl; apply andb_true_r|lia|]. intros d _ Hd.
    replace (d =? 0)%nat with false by lia. rewrite !andb_false_r. reflexivity.
  - intros i _ Hi. apply xsum_false. intros d _. replace (c =? i)%nat with false by lia. apply andb_false_r.
Qed.

Lemma ff_state us : fback C = None -> forall s c d, (c < k)%nat -> (1 <= d <= mem C c)%nat ->
  cellC (walk nf s us) 0 c d =
    if (d <=? length us)%nat then Z.testbit (nth (length us - d) us 0) (Z.of_nat k - 1 - Z.of_nat c) else cellC s 0 c (d - length us).
Proof.
  intros Hf. induction us as [|u us IH] using rev_ind; intros s c d Hc Hd.
  - cbn [length walk]. replace (d <=? 0)%nat with false by lia. rewrite Nat.sub_0_r. reflexivity.
  - rewrite walk_app. cbn [walk]. rewrite next_f_cell by assumption. rewrite app_length. cbn [length].
    destruct (Nat.eq_dec d 1) as [->|Hd1].
    + rewrite ff_new by assumption. replace (1 <=? length us + 1)%nat with true by lia.
      rewrite app_nth2 by lia. replace (length us + 1 - 1 - length us)%nat with 0%nat by lia. reflexivity.
    + unfold newcell. replace (d =? 1)%nat with false by lia. rewrite (cell_u _ u 0) by lia. rewrite IH by lia.
      destruct (Nat.leb_spec (d - 1) (length us)) as [H|H].
      * replace (d <=? length us + 1)%nat with true by lia. rewrite app_nth1 by lia. do 2 f_equal. lia.
      * replace (d <=? length us + 1)%nat with false by lia. f_equal. lia.
Qed.

Lemma cell_0 c d : cellC 0 0 c d = false.
Proof. unfold cell. destruct (d =? 0)%nat; apply Z.bits_0. Qed.

(* ends in state 0 after max_mem zero inputs *)
Lemma mem_le_max c : (mem C c <= max_mem (memory C))%nat.
Proof. pose proof (mem_max C c) as H. unfold WW in H. lia. Qed.

Lemma ff_zero us z : fback C = None -> (max_mem (memory C) <= z)%nat -> walk nf 0 (us ++ repeat 0 z) = 0.
Proof.
  intros Hf Hz. apply (states_ext C); [apply walk_nf_range, zero_range|apply zero_range|]. intros c d Hc Hd. rewrite ff_state by assumption.
  rewrite app_length, repeat_length. pose proof (mem_le_max c). replace (d <=? length us + z)%nat with true by lia.
  rewrite app_nth2 by lia. rewrite nth_repeat_same, cell_0. apply Z.bits_0.
Qed.

(* ---------------------------------------------------------------- incoming branches *)
(* value of the new first cell of line c *)
Definition front (s u : Z) (c : nat) : bool := line_sum C (fun i e => cellC s u i e && fcoef C c i e).
Local Notation input_injective := (input_injective C).

Lemma ff_injective : fback C = None -> input_injective.
Proof.
  intros Hf u u' Hu Hu' H. apply (outs_ext C k); [exact Hu|exact Hu'|]. intros j Hj. specialize (H j Hj).
  unfold fcoef in H. rewrite Hf in H. rewrite !(xsum_single _ k j Hj) in H.
  - rewrite !Nat.eqb_refl, !andb_true_r in H. exact H.
  - intros i _ Hi. replace (j =? i)%nat with false by lia. apply andb_false_r.
  - intros i _ Hi. replace (j =? i)%nat with false by lia. apply andb_false_r.
Qed.

(* what is shifted out of line c *)
Definition dropped (s u : Z) (c : nat) : bool := if (mem C c =? 0)%nat then front s u c else cellC s u c (mem C c).
Definition drop_f (s u : Z) : Z := bitarray2dec (map (fun c => Z.b2z (dropped s u c)) (seq 0 k)).

Lemma drop_bits s u : bits (map (fun c => Z.b2z (dropped s u c)) (seq 0 k)).
Proof. apply Forall_forall. intros x Hx. apply in_map_iff in Hx. destruct Hx as (c & <- & _). apply is_bit_b2z. Qed.
Lemma drop_range s u : 0 <= drop_f s u < 2 ^ Z.of_nat k.
Proof. pose proof (bitarray2dec_range _ (drop_bits s u)) as H. rewrite map_seq_length in H. exact H. Qed.
Lemma drop_inj s u s' u' : drop_f s u = drop_f s' u' -> forall c, (c < k)%nat -> dropped s u c = dropped s' u' c.
Proof.
  intros H c Hc. pose proof (bits_msb_b2d _ (drop_bits s u)) as E. pose proof (bits_msb_b2d _ (drop_bits s' u')) as E'.
  rewrite map_seq_length in E, E'. fold (drop_f s u) in E. fold (drop_f s' u') in E'. rewrite H in E. rewrite E in E'.
  assert (Hn : nth c (map (fun c => Z.b2z (dropped s u c)) (seq 0 k)) 0 = nth c (map (fun c => Z.b2z (dropped s' u' c)) (seq 0 k)) 0) by (rewrite E'; reflexivity).
  rewrite !nth_map_seq in Hn by exact Hc. apply Z.b2z_inj in Hn. exact Hn.
Qed.

Lemma step_inj s u s' u' : input_injective -> 0 <= s < 2 ^ Z.of_nat M -> 0 <= s' < 2 ^ Z.of_nat M ->
  0 <= u < 2 ^ Z.of_nat k -> 0 <= u' < 2 ^ Z.of_nat k ->
  nf s u = nf s' u' -> drop_f s u = drop_f s' u' -> s = s' /\ u = u'.
Proof.
  intros HI Hs Hs' Hu Hu' Hn Hd. pose proof (drop_inj _ _ _ _ Hd) as Hdr.
  assert (Hcell : forall c d, (c < k)%nat -> (1 <= d <= mem C c)%nat -> newcell C s u c d = newcell C s' u' c d).
  { intros c d Hc Hcd. rewrite <- !next_f_cell by assumption. rewrite Hn. reflexivity. }
  assert (Es : s = s').
  { apply (states_ext C); [exact Hs|exact Hs'|]. intros c d Hc Hcd. rewrite (cell_u s 0 u), (cell_u s' 0 u') by lia.
    destruct (Nat.eq_dec d (mem C c)) as [->|Hne].
    - specialize (Hdr c Hc). unfold dropped in Hdr. replace (mem C c =? 0)%nat with false in Hdr by lia. exact Hdr.
    - specialize (Hcell c (S d) Hc ltac:(lia)). unfold newcell in Hcell. replace (S d =? 1)%nat with false in Hcell by lia.
      replace (S d - 1)%nat with d in Hcell by lia. exact Hcell. }
  split; [exact Es|]. subst s'. apply HI; [exact Hu|exact Hu'|]. intros c Hc.
  assert (Hfr : front s u c = front s u' c).
  { destruct (Nat.eq_dec (mem C c) 0) as [E0|E0].
    - specialize (Hdr c Hc). unfold dropped in Hdr. rewrite E0 in Hdr. exact Hdr.
    - specialize (Hcell c 1%nat Hc ltac:(lia)). exact Hcell. }
  (* split front into the input part and the state part *)
  assert (Hsplit : forall v, front s v c = xorb (xsum (map (fun i => Z.testbit v (Z.of_nat k - 1 - Z.of_nat i) && fcoef C c i 0) (seq 0 k)))
      (xsum (map (fun i => xsum (map (fun d => cellC s 0 i d && fcoef C c i d) (seq 1 (mem C i)))) (seq 0 k)))).
  { intros v. unfold front, line_sum. rewrite <- xsum_xor. apply xsum_ext. intros i _. cbn [seq map]. rewrite xsum_cons. f_equal.
    apply xsum_ext. intros d Hd'. apply in_seq in Hd'. rewrite (cell_u s v 0) by lia. reflexivity. }
  rewrite !Hsplit in Hfr. set (st := xsum (map _ (seq 0 k))) in Hfr at 2 4. 
  destruct (xsum (map (fun i => Z.testbit u _ && _) _)), (xsum (map (fun i => Z.testbit u' _ && _) _)); try reflexivity;
  destruct (xsum (map (fun i => xsum (map (fun d => cellC s 0 i d && fcoef C c i d) (seq 1 (mem C i)))) (seq 0 k))); discriminate Hfr.
Qed.

(* counting *)
Lemma zseq_In m z : In z (zseq m) <-> 0 <= z < 2 ^ Z.of_nat m.
Proof.
  unfold zseq. rewrite in_map_iff. pose proof (pow2_nat m) as Hp. split.
  - intros (x & <- & Hx). apply in_seq in Hx. lia.
  - intros Hz. exists (Z.to_nat z). split; [lia|]. apply in_seq. lia.
Qed.
Lemma zseq_NoDup m : NoDup (zseq m).
Proof. apply FinFun.Injective_map_NoDup; [intros x y; lia|apply seq_NoDup]. Qed.
Lemma zseq_length m : length (zseq m) = (2 ^ m)%nat. Proof. apply map_seq_length. Qed.

Lemma NoDup_map_in {A B} (f : A -> B) l : (forall x y, In x l -> In y l -> f x = f y -> x = y) -> NoDup l -> NoDup (map f l).
Proof.
  intros Hf HN. induction HN as [|x l Hx HN IH]; [constructor|]. cbn [map]. constructor.
  - intros Hin. apply in_map_iff in Hin. destruct Hin as (y & E & Hy). apply Hx. rewrite <- (Hf y x); [exact Hy|right; exact Hy|left; reflexivity|exact E].
  - apply IH. intros a b Ha Hb. apply Hf; right; assumption.
Qed.

Lemma perm_filter {A} (f : A -> bool) l l' : Permutation l l' -> length (filter f l) = length (filter f l').
Proof. induction 1; cbn [filter]; try congruence; [destruct (f x); cbn [length]; congruence|destruct (f x), (f y); reflexivity]. Qed.

Lemma NoDup_app_join {A} (l l' : list A) : NoDup l -> NoDup l' -> (forall x, In x l -> ~ In x l') -> NoDup (l ++ l').
Proof.
  intros H H' Hd. induction H as [|x l Hx H IH]; [exact H'|]. cbn [app]. constructor.
  - rewrite in_app_iff. intros [|]; [contradiction|]. apply (Hd x); [left; reflexivity|assumption].
  - apply IH. intros y Hy. apply Hd. right. exact Hy.
Qed.
Lemma NoDup_prod {A B} (l : list A) (l' : list B) : NoDup l -> NoDup l' -> NoDup (list_prod l l').
Proof.
  intros H H'. induction H as [|x l Hx H IH]; [constructor|]. cbn [list_prod]. apply NoDup_app_join.
  - apply NoDup_map_in; [intros a b _ _ E; congruence|exact H'].
  - exact IH.
  - intros [a b] Hin Hin2. apply in_map_iff in Hin. destruct Hin as (y & E & _). injection E as <- <-. apply in_prod_iff in Hin2. tauto.
Qed.

Lemma filter_map_len {A B} (f : B -> bool) (g : A -> B) l : length (filter f (map g l)) = length (filter (fun x => f (g x)) l).
Proof. induction l as [|a l IH]; [reflexivity|]. cbn [map filter]. destruct (f (g a)); cbn [length]; congruence. Qed.

Lemma filter_all {A} (f : A -> bool) l : (forall x, In x l -> f x = true) -> filter f l = l.
Proof. induction l as [|a l IH]; intros H; [reflexivity|]. cbn [filter]. rewrite (H a) by (left; reflexivity). f_equal. apply IH. intros x Hx. apply H. right. exact Hx. Qed.
Lemma filter_none {A} (f : A -> bool) l : (forall x, In x l -> f x = false) -> filter f l = [].
Proof. induction l as [|a l IH]; intros H; [reflexivity|]. cbn [filter]. rewrite (H a) by (left; reflexivity). apply IH. intros x Hx. apply H. right. exact Hx. Qed.

Lemma filter_fst {B} (x : Z) (l : list Z) (l' : list B) : NoDup l -> In x l -> length (filter (fun p => fst p =? x) (list_prod l l')) = length l'.
Proof.
  intros HN Hx. induction HN as [|a l Ha HN IH]; [contradiction|]. cbn [list_prod]. rewrite filter_app, app_length.
  destruct Hx as [->|Hx].
  - rewrite (filter_all _ (map _ l')) by (intros p Hp; apply in_map_iff in Hp; destruct Hp as (y & <- & _); apply Z.eqb_refl).
    rewrite map_length. rewrite filter_none; [cbn; lia|]. intros [b y] Hp. apply in_prod_iff in Hp. cbn [fst]. apply Z.eqb_neq. intros ->. tauto.
  - rewrite (filter_none _ (map _ l')); [apply IH; exact Hx|]. intros p Hp. apply in_map_iff in Hp. destruct Hp as (y & <- & _). cbn [fst]. apply Z.eqb_neq. intros ->. contradiction.
Qed.

Lemma incoming_count s' : input_injective -> 0 <= s' < 2 ^ Z.of_nat M ->
  length (filter (fun p => nf (fst p) (snd p) =? s') (list_prod (zseq M) (zseq k))) = (2 ^ k)%nat.
Proof.
  intros HI Hs'. set (P := list_prod (zseq M) (zseq k)). set (phi := fun p : Z * Z => (nf (fst p) (snd p), drop_f (fst p) (snd p))).
  assert (HP : NoDup P) by (apply NoDup_prod; apply zseq_NoDup).
  assert (HmN : NoDup (map phi P)).
  { apply NoDup_map_in; [|exact HP]. intros [s u] [t v] H1 H2 E. apply in_prod_iff in H1, H2. rewrite !zseq_In in H1, H2.
    unfold phi in E. cbn [fst snd] in E. injection E as E1 E2. destruct (step_inj s u t v HI) as [-> ->]; tauto. }
  assert (Hperm : Permutation (map phi P) P).
  { apply NoDup_Permutation_bis; [exact HmN|rewrite map_length; lia|]. intros [a b] Hin. apply in_map_iff in Hin. destruct Hin as ([s u] & E & Hin).
    unfold phi in E. cbn [fst snd] in E. injection E as <- <-. apply in_prod_iff. rewrite !zseq_In. split; [apply next_f_range|apply drop_range]. }
  pose proof (perm_filter (fun p => fst p =? s') _ _ Hperm) as E. rewrite filter_map_len in E. unfold phi in E at 1. cbn [fst] in E.
  rewrite E. unfold P. rewrite filter_fst; [apply zseq_length|apply zseq_NoDup|apply zseq_In; exact Hs'].
Qed.

End Code.
