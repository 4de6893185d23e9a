(* Noise-free streams, and the three decoding types as instances of the generic theorem. *)
From Coq Require Import Reals Lra.
From Verif Require Import Base UtilModel UtilProofs TrellisModel TrellisSpec TrellisProofs FloatRate ConvProofs ConvCode ConvMore ConvTop ViterbiModel ViterbiProofs ViterbiArray ViterbiRun ViterbiSpec ViterbiCore ViterbiReal.

Lemma out_from_blocks k B (out us : list Z) : (1 <= k)%nat -> length out = (B * k)%nat -> length us = B ->
  (forall b, (b < B)%nat -> slice out (b * k) ((b + 1) * k) = bits_msb k (nth b us 0)) -> out = bitstream k us.
Proof.
  intros Hk L1 L2 H. apply nth_ext_Z; [rewrite bitstream_length; lia|]. rewrite L1. intros i Hi.
  pose proof (Nat.div_mod i k ltac:(lia)) as Hd. pose proof (Nat.mod_upper_bound i k ltac:(lia)) as Hm. assert (Hq : (i / k < B)%nat) by nia.
  rewrite Hd, (Nat.mul_comm k). set (q := (i / k)%nat) in *. set (r := (i mod k)%nat) in *. clearbody q r.
  rewrite (bitstream_nth k us q r 0) by lia. rewrite <- bits_msb_nth by lia. rewrite <- H by exact Hq. rewrite slice_nth by lia. reflexivity.
Qed.

Lemma bitstream_symbols tr msg T : (1 <= tr_k tr)%nat -> bits msg -> length msg = (T * tr_k tr)%nat -> bitstream (tr_k tr) (symbols tr msg) = msg.
Proof.
  intros Hk Hb HL. symmetry. apply (out_from_blocks (tr_k tr) T); [exact Hk|exact HL|rewrite symbols_length, HL; apply Nat.div_mul; lia|].
  intros b Hlt. unfold symbols. rewrite nth_map_seq by (rewrite HL, Nat.div_mul by lia; exact Hlt).
  assert (Hsl : length (slice msg (b * tr_k tr) ((b + 1) * tr_k tr)) = tr_k tr) by (rewrite slice_length by nia; lia).
  symmetry. rewrite <- Hsl at 1. apply bits_msb_b2d. apply bits_slice. exact Hb.
Qed.

Lemma emit_firstn nx ou tau : forall us s, emit nx ou s (firstn tau us) = firstn tau (emit nx ou s us).
Proof. induction tau as [|tau IH]; intros [|u us] s; try reflexivity. cbn [firstn emit]. f_equal. apply IH. Qed.
Lemma bitstream_firstn m tau : forall ws, bitstream m (firstn tau ws) = firstn (tau * m) (bitstream m ws).
Proof.
  unfold bitstream. induction tau as [|tau IH]; intros [|w ws]; try reflexivity; [cbn [map concat firstn]; rewrite firstn_nil; reflexivity|].
  cbn [firstn map concat]. rewrite IH. cbn [Nat.mul]. rewrite firstn_app, bits_msb_length. rewrite (firstn_all2 (bits_msb m w)) by (rewrite bits_msb_length; lia).
  do 2 f_equal. lia.
Qed.
Lemma seen1_nth us tau b : (b < length us)%nat -> (b < tau)%nat -> nth b (seen 1 us 0 tau) 0 = nth b us 0.
Proof. intros H1 H2. unfold seen. rewrite firstn_nth by lia. apply app_nth1. exact H1. Qed.
Section Streams.
Context (C : code) (rsc : bool).
Hypothesis WF : well_formed C.
Hypothesis Hn : (1 <= outs C)%nat.
Local Notation tr := (the_trellis C rsc).
Local Notation k := (kk C).
Local Notation n := (outs C).
Local Notation M := (MM C).

Lemma zero_step : next_f C 0 0 = 0 /\ out_f C 0 0 = 0.
Proof.
  split.
  - pose proof (next_f_xor C 0 0 0 0) as H. rewrite Z.lxor_nilpotent in H. rewrite H. apply Z.lxor_nilpotent.
  - pose proof (out_f_xor C 0 0 0 0) as H. rewrite Z.lxor_nilpotent in H. rewrite H. apply Z.lxor_nilpotent.
Qed.
Lemma kpos : (1 <= k)%nat. Proof. apply k_pos. exact WF. Qed.
Lemma zero_input : 0 <= 0 < 2 ^ Z.of_nat k. Proof. split; [lia|apply Z.pow_pos_nonneg; lia]. Qed.

Lemma encoded_zeros m : walk (entry (tr_next tr)) 0 (repeat 0 m) = 0 /\ emit (entry (tr_next tr)) (entry (tr_out tr)) 0 (repeat 0 m) = repeat 0 m.
Proof.
  induction m as [|m [IH1 IH2]]; [split; reflexivity|]. cbn [repeat walk emit].
  rewrite entry_next, entry_out by (apply zero_range || apply zero_input). destruct zero_step as [-> ->]. rewrite IH1, IH2. split; reflexivity.
Qed.
Lemma bits_msb_0 m : bits_msb m 0 = repeat 0 m.
Proof. apply nth_ext_Z; rewrite bits_msb_length, ?repeat_length; [reflexivity|]. intros i Hi. rewrite bits_msb_nth by exact Hi. rewrite nth_repeat_same, Z.bits_0. reflexivity. Qed.
Lemma bitstream_zeros m t : bitstream m (repeat 0 t) = repeat 0 (t * m).
Proof.
  unfold bitstream. induction t as [|t IH]; [reflexivity|]. cbn [repeat map concat]. rewrite IH, bits_msb_0, <- repeat_app. f_equal.
Qed.

Lemma encoded_app_zeros us m : walk (entry (tr_next tr)) 0 us = 0 -> encoded tr (us ++ repeat 0 m) = encoded tr us ++ repeat 0 (m * n).
Proof.
  intros W. unfold encoded. rewrite emit_app, W, (proj2 (encoded_zeros m)), bitstream_app. f_equal. apply bitstream_zeros.
Qed.
Lemma encoded_firstn tau us : encoded tr (firstn tau us) = firstn (tau * n) (encoded tr us).
Proof. unfold encoded. rewrite emit_firstn. apply bitstream_firstn. Qed.
Lemma seen_encoded us tau : walk (entry (tr_next tr)) 0 us = 0 -> encoded tr (seen 1 us 0 tau) = seen n (encoded tr us) 0 tau.
Proof.
  intros W. unfold seen at 1. rewrite !Nat.mul_1_r, encoded_firstn, encoded_app_zeros by exact W. apply seen_any. lia.
Qed.
Lemma seen_inputs us tau : inputs k us -> inputs k (seen 1 us 0 tau).
Proof.
  intros H. apply Forall_forall. intros u Hu. unfold seen in Hu. assert (In u (us ++ repeat 0 (tau * 1))) as H1.
  { rewrite <- (firstn_skipn (tau * 1)). apply in_or_app. left. exact Hu. }
  apply in_app_or in H1. destruct H1 as [H1|H1]; [unfold inputs in H; rewrite Forall_forall in H; exact (H u H1)|]. apply repeat_spec in H1. subst u. apply zero_input.
Qed.
Lemma steps_ge B : (k <= M)%nat -> (B <= steps C B)%nat.
Proof.
  intros H. pose proof kpos. unfold steps. pose proof (Nat.div_le_mono (B * k + k) (B * k + M) k ltac:(lia) ltac:(lia)) as H1. replace (B * k + k)%nat with ((B + 1) * k)%nat in H1 by lia.
  rewrite Nat.div_mul in H1 by lia. lia.
Qed.
End Streams.

(* ---------------------------------------------------------------- hard *)
Definition lx (x b : Z) : Z := Z.lxor x b.
Lemma hard_metric r i : length r = length i -> d_metric hard r i = Ok (dist Z.add 0 lx r i).
Proof.
  intros H. cbn [d_metric hard]. unfold hamming_dist, np_broadcast2. rewrite (proj2 (Nat.eqb_eq _ _) H). cbn [bind]. f_equal.
  revert i H. induction r as [|x r IH]; intros [|b i] H; try discriminate; [reflexivity|]. cbn [combine map Zsum fold_right dist]. f_equal. apply IH. cbn in H. lia.
Qed.
Lemma hard_dist a : forall b, bits a -> bits b -> length a = length b -> dist Z.add 0 lx a b = mismatches a b.
Proof.
  induction a as [|x a IH]; intros [|y b] Ha Hb H; try discriminate; [reflexivity|]. inversion Ha; subst. inversion Hb; subst. cbn [dist].
  rewrite IH by (try assumption; cbn in H; lia). unfold mismatches. cbn [combine filter fst snd]. unfold lx.
  set (z := filter _ _). destruct H2 as [-> | ->], H4 as [-> | ->]; cbn [Z.eqb Pos.eqb negb length Z.lxor Pos.lxor Z.of_N]; lia.
Qed.

Lemma hard_ml_ties C rsc coded B tb gp gs : well_formed C -> fback C = None \/ input_injective C -> (1 <= outs C)%nat -> (kk C <= MM C)%nat -> bits coded ->
  length coded = (B * outs C)%nat -> mul_ok (kk C) (outs C) = true -> Z.of_nat (kk C) * Z.of_nat B < 2 ^ 49 -> shaped C gs ->
  (2 <= tb)%nat -> (MM C <= tb + kk C)%nat -> (tb <= steps C B + 1)%nat ->
  let tr := the_trellis C rsc in
  exists (out caller : list Z) (sv : nat -> list Z),
    viterbi_decode Z.add Z.leb 0 hard coded tr (Some tb) gp gs = Ok (map Some out, caller) /\
    caller = (if (steps C B <=? B)%nat || (B =? 0)%nat then coded else firstn ((B - 1) * outs C) coded ++ repeat 0 (outs C)) /\
    length out = (B * kk C)%nat /\ bits out /\
    (forall tau, length (sv tau) = tau /\ minimises Z.le tr (mismatches (seen (outs C) coded 0 tau)) (sv tau)) /\
    (forall b, (b < B)%nat -> slice out (b * kk C) ((b + 1) * kk C) = bits_msb (kk C) (nth b (sv (Nat.min (steps C B) (b + tb - 1))) 0)) /\
    forall tau us', length us' = tau -> inputs (kk C) us' -> walk (entry (tr_next tr)) 0 us' = 0 -> walk (entry (tr_next tr)) 0 (sv tau) <> 0 ->
      mismatches (seen (outs C) coded 0 tau) (encoded tr (sv tau)) < mismatches (seen (outs C) coded 0 tau) (encoded tr us').
Proof.
  intros WF HI Hn HkM Hbits Hlen Hmul Hbig Hg Htb HM HT tr.
  destruct (vit_core_ties Z.add Z.leb 0 lx) with (d := hard) (pad := 0) (C := C) (rsc := rsc) (coded := coded) (B := B) (tb := tb) (gp := gp) (gs := gs)
    as (out & sv & E & L & Hb & Hsv & Hblk & Hties); try assumption; try (intros; lia); try reflexivity.
  { intros r i H _. apply hard_metric. exact H. }
  assert (Hseen : forall tau, bits (seen (tr_n tr) coded 0 tau)).
  { intros tau. unfold seen. apply Forall_forall. intros x Hx. assert (In x (coded ++ repeat 0 (tau * tr_n tr))) as Hx'.
    { rewrite <- (firstn_skipn (tau * tr_n tr)). apply in_or_app. left. exact Hx. }
    assert (HB : bits (coded ++ repeat 0 (tau * tr_n tr))) by (apply bits_app; split; [exact Hbits|apply bits_repeat0]).
    unfold bits in HB. rewrite Forall_forall in HB. exact (HB x Hx'). }
  exists out, (caller hard 0 C B coded), sv. split; [exact E|]. split.
  { unfold caller. cbn [d_clip hard]. rewrite (skipn_all2 (n := (B * outs C)%nat)) by lia. rewrite app_nil_r. reflexivity. }
  split; [exact L|]. split; [exact Hb|]. split; [|split; [exact Hblk|]].
  - intros tau. destruct (Hsv tau) as (L1 & Hv & Hm). split; [exact L1|]. split; [exact Hv|]. intros us' L2 Hv'. specialize (Hm us' L2 Hv').
    unfold work in Hm. cbn [d_clip hard] in Hm. apply Z.leb_le in Hm. change (outs C) with (tr_n tr).
    rewrite <- !hard_dist; try apply Hseen; try apply bits_bitstream; try exact Hm;
      rewrite seen_length; unfold tr; rewrite encoded_length; rewrite ?L2, L1; reflexivity.
  - intros tau us' L2 Hv' W0 W1. specialize (Hties tau us' L2 Hv' W0 W1). destruct (Hsv tau) as (L1 & _).
    unfold work in Hties. cbn [d_clip hard] in Hties. apply Z.leb_gt in Hties. change (outs C) with (tr_n tr).
    rewrite <- !hard_dist; try apply Hseen; try apply bits_bitstream; try exact Hties;
      rewrite seen_length; unfold tr; rewrite encoded_length; rewrite ?L2, ?L1; reflexivity.
Qed.
Lemma hard_ml C rsc coded B tb gp gs : well_formed C -> fback C = None \/ input_injective C -> (1 <= outs C)%nat -> (kk C <= MM C)%nat -> bits coded ->
  length coded = (B * outs C)%nat -> mul_ok (kk C) (outs C) = true -> Z.of_nat (kk C) * Z.of_nat B < 2 ^ 49 -> shaped C gs ->
  (2 <= tb)%nat -> (MM C <= tb + kk C)%nat -> (tb <= steps C B + 1)%nat ->
  let tr := the_trellis C rsc in
  exists (out caller : list Z) (sv : nat -> list Z),
    viterbi_decode Z.add Z.leb 0 hard coded tr (Some tb) gp gs = Ok (map Some out, caller) /\
    caller = (if (steps C B <=? B)%nat || (B =? 0)%nat then coded else firstn ((B - 1) * outs C) coded ++ repeat 0 (outs C)) /\
    length out = (B * kk C)%nat /\ bits out /\
    (forall tau, length (sv tau) = tau /\ minimises Z.le tr (mismatches (seen (outs C) coded 0 tau)) (sv tau)) /\
    forall b, (b < B)%nat -> slice out (b * kk C) ((b + 1) * kk C) = bits_msb (kk C) (nth b (sv (Nat.min (steps C B) (b + tb - 1))) 0).
Proof.
  intros H1 H2 H3 H4 H5 H6 H7 H8 H9 H10 H11 H12 tr. destruct (hard_ml_ties C rsc coded B tb gp gs H1 H2 H3 H4 H5 H6 H7 H8 H9 H10 H11 H12) as (out & caller & sv & E & Hc & L & Hb & Hsv & Hblk & _).
  exists out, caller, sv. repeat (split; [assumption|]). exact Hblk.
Qed.

Lemma lx_weak b : is_bit b -> weak Z.leb lx b b.
Proof. intros H b' H'. unfold lx. apply Z.leb_le. destruct H as [-> | ->], H' as [-> | ->]; cbn; lia. Qed.
Lemma lx_strict b : is_bit b -> strict Z.leb lx b b.
Proof. intros H b' H' E. unfold lx in E. apply Z.leb_le in E. destruct H as [-> | ->], H' as [-> | ->]; cbn in *; lia. Qed.

(* every block decided on a prefix that agrees with the code stream of us is right *)
Lemma hard_block C rsc us sv tau : well_formed C -> (1 <= outs C)%nat -> output_injective C ->
  let tr := the_trellis C rsc in inputs (kk C) us -> length us = tau -> length sv = tau ->
  minimises Z.le tr (mismatches (encoded tr us)) sv -> sv = us.
Proof.
  intros WF Hn HO tr Hu L1 L2 [Hv Hm]. rewrite <- (firstn_all sv), <- (firstn_all us), L1, L2.
  apply (noiseless_min Z.add Z.leb 0 lx) with (C := C) (rsc := rsc) (xs := encoded tr us); try assumption; try (intros; lia).
  - split; [exact Hv|]. intros us' L Hu'. specialize (Hm us' L Hu'). rewrite !hard_dist; try apply bits_bitstream; [apply Z.leb_le; exact Hm| |]; unfold tr; rewrite !encoded_length; lia.
  - apply encoded_length.
  - intros i dx Hi. rewrite (nth_indep _ dx 0) by exact Hi. apply lx_weak. apply bits_nth. apply bits_bitstream.
  - intros i dx _ Hi. rewrite (nth_indep _ dx 0) by exact Hi. apply lx_strict. apply bits_nth. apply bits_bitstream.
Qed.

(* ---------------------------------------------------------------- real metrics *)
Section RealMetric.
Open Scope R_scope.
Lemma Rleb_iff a b : Rleb a b = true <-> a <= b.
Proof. unfold Rleb. destruct (Rle_dec a b); split; intros; try assumption; try reflexivity; try discriminate. contradiction. Qed.
Lemma Rleb_refl a : Rleb a a = true. Proof. apply Rleb_iff. lra. Qed.
Lemma Rleb_trans a b c : Rleb a b = true -> Rleb b c = true -> Rleb a c = true. Proof. rewrite !Rleb_iff. lra. Qed.
Lemma Rleb_total a b : Rleb a b = true \/ Rleb b a = true. Proof. rewrite !Rleb_iff. lra. Qed.
Lemma Rleb_mono a b c : Rleb a b = true -> Rleb (a + c) (b + c) = true. Proof. rewrite !Rleb_iff. lra. Qed.
Lemma Rleb_mono2 a b c e : Rleb a c = true -> Rleb b e = true -> Rleb (a + b) (c + e) = true. Proof. rewrite !Rleb_iff. lra. Qed.
Lemma Rleb_both a b c e : Rleb a c = true -> Rleb b e = true -> Rleb (c + e) (a + b) = true -> Rleb c a = true /\ Rleb e b = true. Proof. rewrite !Rleb_iff. lra. Qed.

Definition sq (x : R) (b : Z) : R := (x - IZR (2 * b - 1)) ^ 2.
Definition nl (x : R) (b : Z) : R := - ln (if (b =? 0)%Z then 1 / (1 + exp x) else exp x / (1 + exp x)).

Lemma dist_fold (g : R -> Z -> R) a : forall b, dist Rplus 0 g a b = fold_right Rplus 0 (map (fun p => g (fst p) (snd p)) (combine a b)).
Proof. induction a as [|x a IH]; intros [|y b]; try reflexivity. cbn [dist combine map fold_right fst snd]. rewrite IH. reflexivity. Qed.

Lemma unquantized_metric r i : length r = length i -> d_metric unquantized r i = Ok (dist Rplus 0 sq r i).
Proof.
  intros H. cbn [d_metric unquantized]. unfold np_broadcast2. rewrite map_length. rewrite (proj2 (Nat.eqb_eq _ _) H). cbn [bind]. f_equal.
  revert i H. induction r as [|x r IH]; intros [|b i] H; try discriminate; [reflexivity|]. cbn [combine map Rsum fold_right dist fst snd].
  rewrite <- IH by (cbn in H; lia). unfold Rsum, sq. ring.
Qed.
Lemma nl_0 x : nl x 0 = ln (exp x + 1).
Proof.
  unfold nl. cbn [Z.eqb]. pose proof (exp_pos x). unfold Rdiv. rewrite Rmult_1_l, ln_Rinv by lra. rewrite Ropp_involutive. f_equal. lra.
Qed.
Lemma nl_1 x b : (b =? 0)%Z = false -> nl x b = ln (exp x + 1) - x.
Proof.
  intros H. unfold nl. rewrite H. pose proof (exp_pos x). unfold Rdiv. rewrite ln_mult; [|lra|apply Rinv_0_lt_compat; lra]. rewrite ln_Rinv by lra. rewrite ln_exp.
  replace (1 + exp x) with (exp x + 1) by lra. lra.
Qed.
Lemma soft_metric r i : length r = length i -> d_metric soft r i = Ok (dist Rplus 0 nl r i).
Proof.
  intros H. cbn [d_metric soft]. unfold np_broadcast2. rewrite (proj2 (Nat.eqb_eq _ _) H). cbn [bind]. f_equal.
  revert i H. induction r as [|x r IH]; intros [|b i] H; try discriminate; [reflexivity|]. cbn [combine map Rsum fold_right dist fst snd].
  rewrite <- IH by (cbn in H; lia). unfold Rsum. f_equal. destruct (b =? 0)%Z eqn:E; [apply Z.eqb_eq in E; subst b; symmetry; apply nl_0|symmetry; apply nl_1; exact E].
Qed.
End RealMetric.

Section RealDecode.
Context (C : code) (rsc : bool) (d : dtype R R) (g : R -> Z -> R) (pad : R).
Hypothesis WF : well_formed C.
Hypothesis HI : fback C = None \/ input_injective C.
Hypothesis Hn : (1 <= outs C)%nat.
Hypothesis HkM : (kk C <= MM C)%nat.
Hypothesis Hmet : forall r i, length r = length i -> d_metric d r i = Ok (dist Rplus 0%R g r i).
Hypothesis Hpad : d_pad d = Ok pad.
Local Notation tr := (the_trellis C rsc).

Lemma real_ml coded B tb gp gs :
  length coded = (B * outs C)%nat -> mul_ok (kk C) (outs C) = true -> Z.of_nat (kk C) * Z.of_nat B < 2 ^ 49 -> shaped C gs ->
  (2 <= tb)%nat -> (MM C <= tb + kk C)%nat -> (tb <= steps C B + 1)%nat ->
  exists (out : list Z) (sv : nat -> list Z),
    viterbi_decode Rplus Rleb 0%R d coded tr (Some tb) gp gs = Ok (map Some out, caller d pad C B coded) /\
    length out = (B * kk C)%nat /\ bits out /\
    (forall tau, length (sv tau) = tau /\ minimises Rle tr (dist Rplus 0%R g (seen (outs C) (work d coded) pad tau)) (sv tau)) /\
    forall b, (b < B)%nat -> slice out (b * kk C) ((b + 1) * kk C) = bits_msb (kk C) (nth b (sv (Nat.min (steps C B) (b + tb - 1))) 0).
Proof.
  intros Hlen Hmul Hbig Hg Htb HM HT.
  destruct (vit_core Rplus Rleb 0%R g Rleb_refl Rleb_trans Rleb_total Rleb_mono) with (d := d) (pad := pad) (C := C) (rsc := rsc) (coded := coded) (B := B) (tb := tb) (gp := gp) (gs := gs)
    as (out & sv & E & L & Hb & Hsv & Hblk); try assumption.
  { intros a b c. ring. } { intros a. ring. } { intros a. ring. } { intros r i H _. apply Hmet. exact H. } { lia. }
  exists out, sv. split; [exact E|]. split; [exact L|]. split; [exact Hb|]. split; [|exact Hblk].
  intros tau. destruct (Hsv tau) as (L1 & Hv & Hm). split; [exact L1|]. split; [exact Hv|]. intros us' L2 Hv'. apply Rleb_iff. apply Hm; assumption.
Qed.

Lemma real_block us sv tau p xs : output_injective C -> inputs (kk C) us -> length us = tau -> length sv = tau -> length xs = (tau * outs C)%nat ->
  minimises Rle tr (dist Rplus 0%R g xs) sv ->
  (forall i dx, (i < length xs)%nat -> weak Rleb g (nth i xs dx) (nth i (encoded tr us) 0)) ->
  (forall i dx, (i < p * outs C)%nat -> (i < length xs)%nat -> strict Rleb g (nth i xs dx) (nth i (encoded tr us) 0)) -> firstn p sv = firstn p us.
Proof.
  intros HO Hu L1 L2 Lx [Hv Hm] Hw Hs.
  apply (noiseless_min Rplus Rleb 0%R g) with (C := C) (rsc := rsc) (xs := xs); try assumption.
  - apply Rleb_refl.
  - apply Rleb_both.
  - apply Rleb_mono2.
  - split; [exact Hv|]. intros us' L Hu'. apply Rleb_iff. apply Hm; assumption.
  - lia.
  - rewrite L1. exact Lx.
Qed.
End RealDecode.

Lemma sq_vals x : sq x 0 = ((x + 1) * (x + 1))%R /\ sq x 1 = ((x - 1) * (x - 1))%R.
Proof. unfold sq. cbn [Z.mul Z.sub Z.add Z.opp Pos.mul Z.pos_sub Pos.pred_double]. split; ring. Qed.
Lemma sq_carries x b : carries x b -> weak Rleb sq x b /\ strict Rleb sq x b.
Proof.
  destruct (sq_vals x) as [E0 E1]. intros [[-> H]|[-> H]]; split; intros b' [-> | ->]; rewrite ?E0, ?E1, Rleb_iff; try lra; try (intros E; reflexivity);
   intros E; exfalso; lra.
Qed.
Lemma nl_carries x b : carries x b -> weak Rleb nl x b /\ strict Rleb nl x b.
Proof.
  pose proof (nl_0 x) as E0. pose proof (nl_1 x 1 eq_refl) as E1. intros [[-> H]|[-> H]]; split; intros b' [-> | ->]; rewrite ?E0, ?E1, Rleb_iff; try lra; try (intros E; reflexivity);
   intros E; exfalso; lra.
Qed.
Lemma nl_weak0 b : is_bit b -> weak Rleb nl 0%R b.
Proof. intros [-> | ->] b' [-> | ->]; rewrite ?nl_0, ?(nl_1 0 1) by reflexivity; rewrite Rleb_iff; lra. Qed.
Lemma clip_carries x b : carries x b -> carries (Rmax (-500) (Rmin x 500)) b.
Proof.
  intros [[-> H]|[-> H]]; [left|right]; (split; [reflexivity|]); unfold Rmax, Rmin; destruct (Rle_dec x 500); destruct (Rle_dec _ _); lra.
Qed.
