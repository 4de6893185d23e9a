(* Generic decoding theorem for a code and a separable metric, and the noise-free case. *)
From Verif Require Import Base UtilModel UtilProofs TrellisModel TrellisSpec TrellisProofs FloatRate ConvProofs ConvCode ConvTop ViterbiModel ViterbiProofs ViterbiArray ViterbiRun ViterbiSpec.

Lemma firstn_split {A} (l : list A) a b : firstn (a + b) l = firstn a l ++ slice l a (a + b).
Proof.
  unfold slice. replace (a + b - a)%nat with b by lia. revert l. induction a as [|a IH]; intros l; [reflexivity|].
  destruct l as [|x l]; cbn [Nat.add firstn skipn app]; [rewrite firstn_nil; reflexivity|]. f_equal. apply IH.
Qed.
Lemma firstn_repeat_le {A} (x : A) a b : firstn a (repeat x b) = repeat x (Nat.min a b).
Proof. revert b. induction a as [|a IH]; intros [|b]; try reflexivity. cbn [repeat firstn Nat.min]. f_equal. apply IH. Qed.

Lemma seen_length {X} n (coded : list X) pad tau : length (seen n coded pad tau) = (tau * n)%nat.
Proof. unfold seen. rewrite firstn_length, app_length, repeat_length. lia. Qed.
Lemma seen_any {X} n (coded : list X) pad tau N : (tau * n <= length coded + N)%nat -> firstn (tau * n) (coded ++ repeat pad N) = seen n coded pad tau.
Proof. intros H. unfold seen. rewrite !firstn_app, !firstn_repeat_le. do 2 f_equal. lia. Qed.

Lemma seen_S {X} n (coded : list X) pad B tau : length coded = (n * B)%nat ->
  seen n coded pad (S tau) = seen n coded pad tau ++ (if (S tau <=? B)%nat then slice coded (tau * n) (S tau * n) else repeat pad n).
Proof.
  intros HL. unfold seen at 1. replace (S tau * n)%nat with (tau * n + n)%nat by lia. rewrite firstn_split. f_equal; [apply seen_any; lia|].
  unfold slice. replace (tau * n + n - tau * n)%nat with n by lia. destruct (Nat.leb_spec (S tau) B) as [H|H].
  - rewrite skipn_app, firstn_app. replace (n - length (skipn (tau * n) coded))%nat with 0%nat by (rewrite skipn_length; nia). rewrite firstn_O, app_nil_r. reflexivity.
  - rewrite skipn_app, skipn_all2 by nia. cbn [app]. rewrite skipn_repeat, firstn_repeat_le. f_equal. nia.
Qed.
Lemma seen_words {X} tr (coded : list X) pad B tau : length coded = (tr_n tr * B)%nat -> concat (words (rword tr B coded pad) tau) = seen (tr_n tr) coded pad tau.
Proof.
  intros HL. induction tau as [|tau IH]; [reflexivity|]. rewrite words_S, concat_app, IH. cbn [concat]. rewrite app_nil_r, (seen_S _ _ _ B) by exact HL.
  f_equal. unfold rword. replace (S tau - 1)%nat with tau by lia. reflexivity.
Qed.

Lemma slice_bitstream k us b : (b < length us)%nat -> slice (bitstream k us) (b * k) ((b + 1) * k) = bits_msb k (nth b us 0).
Proof.
  intros H. apply nth_ext_Z.
  - rewrite slice_length by (rewrite bitstream_length; nia). rewrite bits_msb_length. lia.
  - rewrite slice_length by (rewrite bitstream_length; nia). intros i Hi. rewrite slice_nth by exact Hi. rewrite (bitstream_nth k us b i 0) by lia.
    symmetry. apply bits_msb_nth. lia.
Qed.

Lemma where_count C rsc : well_formed C -> fback C = None \/ input_injective C -> forall s, (s < number_states (the_trellis C rsc))%nat ->
  length (where_list (the_trellis C rsc) (Z.of_nat s)) = number_inputs (the_trellis C rsc).
Proof.
  intros WF HI s Hs. rewrite where_length. change (number_inputs (the_trellis C rsc)) with (2 ^ kk C)%nat.
  rewrite <- (C22_incoming_proof (fun _ _ => 0) C rsc (the_trellis C rsc) (Z.of_nat s)); [reflexivity|exact WF|apply trellis_of_spec; exact WF|exact HI|].
  change (MM C) with (tr_M (the_trellis C rsc)). rewrite <- (NS_Z (the_trellis C rsc)). lia.
Qed.

Section Core.
Context {A X : Type} (add : A -> A -> A) (leb : A -> A -> bool) (zero : A) (g : X -> Z -> A).
Hypothesis leb_refl : forall a, leb a a = true.
Hypothesis leb_trans : forall a b c, leb a b = true -> leb b c = true -> leb a c = true.
Hypothesis leb_total : forall a b, leb a b = true \/ leb b a = true.
Hypothesis add_mono : forall a b c, leb a b = true -> leb (add a c) (add b c) = true.
Hypothesis add_assoc : forall a b c, add a (add b c) = add (add a b) c.
Hypothesis add_zero : forall a, add a zero = a.
Hypothesis zero_add : forall a, add zero a = a.
Context (d : dtype A X) (pad : X).
Hypothesis Hmet : forall r i, length r = length i -> bits i -> d_metric d r i = Ok (dist add zero g r i).
Hypothesis Hpad : d_pad d = Ok pad.
Context (C : code) (rsc : bool).
Hypothesis WF : well_formed C.
Hypothesis HI : fback C = None \/ input_injective C.
Hypothesis Hn : (1 <= outs C)%nat.
Hypothesis HkM : (kk C <= MM C)%nat.
Local Notation tr := (the_trellis C rsc).
Local Notation k := (kk C).
Local Notation n := (outs C).
Local Notation M := (MM C).
Local Notation dst := (dist add zero g).

Definition work (coded : list X) : list X := match d_clip d with Some f => map f coded | None => coded end.
Definition caller (B : nat) (coded : list X) : list X :=
  match d_clip d with Some _ => coded
  | None => if (steps C B <=? B)%nat || (B =? 0)%nat then coded else firstn ((B - 1) * n) coded ++ repeat pad n ++ skipn (B * n) coded end.

Lemma vit_core_ties coded B tb gp gs : length coded = (n * B)%nat -> mul_ok k n = true -> Z.of_nat k * Z.of_nat B < 2 ^ 49 -> shaped C gs ->
  (2 <= tb)%nat -> (M <= tb + k)%nat -> (tb <= steps C B + 1)%nat ->
  exists (out : list Z) (sv : nat -> list Z),
    viterbi_decode add leb zero d coded tr (Some tb) gp gs = Ok (map Some out, caller B coded) /\
    length out = (B * k)%nat /\ bits out /\
    (forall tau, length (sv tau) = tau /\ minimises (fun a b => leb a b = true) tr (dst (seen n (work coded) pad tau)) (sv tau)) /\
    (forall b, (b < B)%nat -> slice out (b * k) ((b + 1) * k) = bits_msb k (nth b (sv (Nat.min (steps C B) (b + tb - 1))) 0)) /\
    forall tau us', length us' = tau -> inputs k us' -> walk (entry (tr_next tr)) 0 us' = 0 -> walk (entry (tr_next tr)) 0 (sv tau) <> 0 ->
      leb (dst (seen n (work coded) pad tau) (encoded tr us')) (dst (seen n (work coded) pad tau) (encoded tr (sv tau))) = false.
Proof.
  intros Hlen Hmul Hbig Hg Htb HM HT. pose proof (valid_the_trellis C WF rsc Hn) as Hval. pose proof (where_count C rsc WF HI) as Hin.
  pose proof (proj1 Hval) as Hk. change (tr_k tr) with k in Hk.
  set (rs := rword tr B (work coded) pad).
  assert (HwL : length (work coded) = (n * B)%nat) by (unfold work; destruct (d_clip d); rewrite ?map_length; exact Hlen).
  destruct (vit_run add leb zero leb_refl leb_trans leb_total tr d dst Hval Hin HkM) with (coded := coded) (pad := pad) (B := B) (tb := tb) (gp := gp) (garbage := gs)
    as (db & E & Ldb & Ndb); try assumption.
  { intros r i Hr Hi Hb. apply Hmet; [congruence|exact Hb]. }
  change (tr_k tr) with k in *. change (tr_n tr) with n in *. change (tr_M tr) with M in *.
  change ((B * k + M) / k - 1)%nat with (steps C B) in *. fold (work coded) in Ndb, E. fold rs in Ndb.
  assert ((tb <=? steps C B + 1)%nat = true) as HT' by (apply Nat.leb_le; exact HT). rewrite HT' in Ndb. cbn zeta in Ndb.
  set (sv := fun tau => surv add leb zero tr dst rs tau (best add leb zero tr dst rs tau)).
  set (out := map (fun i => nth i (bitstream k (sv (Nat.min (steps C B) (i / k + tb - 1)))) 0) (seq 0 (B * k))).
  assert (HBT : (B <= steps C B)%nat).
  { unfold steps. pose proof (Nat.div_le_mono (B * k + k) (B * k + M) k ltac:(lia) ltac:(lia)) as H. replace (B * k + k)%nat with ((B + 1) * k)%nat in H by lia.
    rewrite Nat.div_mul in H by lia. lia. }
  assert (Hsl : forall tau, length (sv tau) = tau) by (intros tau; apply surv_length).
  exists out, sv. split; [|split; [|split; [|split; [|split]]]].
  - rewrite E. f_equal. f_equal. unfold out. apply (nth_ext _ _ None None); [rewrite !map_length, seq_length; exact Ldb|].
    intros i Hi. rewrite Ldb in Hi. rewrite Ndb by exact Hi. rewrite map_map. symmetry. apply (nth_map_seq (fun i => Some _)). exact Hi.
  - apply map_seq_length.
  - apply Forall_forall. intros x Hx. apply in_map_iff in Hx. destruct Hx as (i & <- & Hi). apply in_seq in Hi.
    pose proof (Nat.div_mod i k ltac:(lia)) as Hd. pose proof (Nat.mod_upper_bound i k ltac:(lia)) as Hm.
    rewrite Hd at 1. rewrite (Nat.mul_comm k). rewrite (bitstream_nth k _ _ _ 0) by (rewrite ?Hsl; nia). apply is_bit_b2z.
  - intros tau. split; [apply Hsl|]. split.
    + apply (surv_vin add leb zero leb_refl leb_trans leb_total add_mono tr dst rs Hin). apply best_lt; auto.
    + intros us' Hl Hv. rewrite Hsl in Hl.
      assert (HF : Forall (fun w => length w = tr_n tr) (words rs tau)).
      { apply Forall_forall. intros w Hw. apply in_map_iff in Hw. destruct Hw as (t & <- & Ht). apply in_seq in Ht. unfold rs, rword. change (tr_n tr) with n.
        destruct (Nat.leb_spec t B); [rewrite slice_length by nia; nia|apply repeat_length]. }
      pose proof (best_optimal add leb zero leb_refl leb_trans leb_total add_mono tr dst rs Hval Hin tau us' Hl Hv) as H. fold (sv tau) in H.
      rewrite !(cost_dist add zero g add_assoc add_zero zero_add tr dst) in H; try assumption; try reflexivity.
      2: { rewrite words_length. exact Hl. } 2: { rewrite words_length. apply Hsl. }
      unfold rs in H. rewrite !zero_add, !(seen_words tr) in H by exact HwL. exact H.
  - intros b Hb. set (tau := Nat.min (steps C B) (b + tb - 1)).
    assert (Hbt : (b < tau)%nat) by (unfold tau; lia).
    rewrite <- slice_bitstream by (rewrite Hsl; exact Hbt).
    assert (Lout : length out = (B * k)%nat) by apply map_seq_length.
    apply nth_ext_Z.
    + rewrite !slice_length by (rewrite ?bitstream_length, ?Hsl, ?Lout; nia). reflexivity.
    + rewrite slice_length by (rewrite Lout; nia). intros i Hi. rewrite !slice_nth by nia.
      unfold out. rewrite nth_map_seq by nia. replace ((b * k + i) / k)%nat with b; [reflexivity|].
      rewrite Nat.add_comm, Nat.div_add by lia. rewrite Nat.div_small by lia. reflexivity.
  - intros tau us' Hl Hv W0 W1.
      assert (HF : Forall (fun w => length w = tr_n tr) (words rs tau)).
      { apply Forall_forall. intros w Hw. apply in_map_iff in Hw. destruct Hw as (t & <- & Ht). apply in_seq in Ht. unfold rs, rword. change (tr_n tr) with n.
        destruct (Nat.leb_spec t B); [rewrite slice_length by nia; nia|apply repeat_length]. }
      pose proof (best_strict add leb zero leb_refl leb_trans leb_total add_mono tr dst rs Hval Hin tau us' Hl Hv W0 W1) as H. fold (sv tau) in H.
      rewrite !(cost_dist add zero g add_assoc add_zero zero_add tr dst) in H; try assumption; try reflexivity.
      2: { rewrite words_length. apply Hsl. } 2: { rewrite words_length. exact Hl. }
      unfold rs in H. rewrite !zero_add, !(seen_words tr) in H by exact HwL. exact H.
Qed.
Lemma vit_core coded B tb gp gs : length coded = (n * B)%nat -> mul_ok k n = true -> Z.of_nat k * Z.of_nat B < 2 ^ 49 -> shaped C gs ->
  (2 <= tb)%nat -> (M <= tb + k)%nat -> (tb <= steps C B + 1)%nat ->
  exists (out : list Z) (sv : nat -> list Z),
    viterbi_decode add leb zero d coded tr (Some tb) gp gs = Ok (map Some out, caller B coded) /\
    length out = (B * k)%nat /\ bits out /\
    (forall tau, length (sv tau) = tau /\ minimises (fun a b => leb a b = true) tr (dst (seen n (work coded) pad tau)) (sv tau)) /\
    forall b, (b < B)%nat -> slice out (b * k) ((b + 1) * k) = bits_msb k (nth b (sv (Nat.min (steps C B) (b + tb - 1))) 0).
Proof.
  intros H1 H2 H3 H4 H5 H6 H7. destruct (vit_core_ties coded B tb gp gs H1 H2 H3 H4 H5 H6 H7) as (out & sv & E & L & Hb & Hsv & Hblk & _). exists out, sv. repeat (split; [assumption|]). exact Hblk.
Qed.

(* the window never reaches the traceback: nothing is written *)
Lemma vit_nothing coded B tb gp gs : length coded = (n * B)%nat -> mul_ok k n = true -> Z.of_nat k * Z.of_nat B < 2 ^ 49 -> shaped C gs ->
  (2 <= tb)%nat -> (M <= tb + k)%nat -> (steps C B + 1 < tb)%nat ->
  viterbi_decode add leb zero d coded tr (Some tb) gp gs = Ok (repeat None (B * k), caller B coded).
Proof.
  intros Hlen Hmul Hbig Hg Htb HM HT. pose proof (valid_the_trellis C WF rsc Hn) as Hval. pose proof (where_count C rsc WF HI) as Hin.
  destruct (vit_run add leb zero leb_refl leb_trans leb_total tr d dst Hval Hin HkM) with (coded := coded) (pad := pad) (B := B) (tb := tb) (gp := gp) (garbage := gs)
    as (db & E & Ldb & Ndb); try assumption.
  { intros r i Hr Hi Hb. apply Hmet; [congruence|exact Hb]. }
  change (tr_k tr) with k in *. change (tr_n tr) with n in *. change (tr_M tr) with M in *.
  change ((B * k + M) / k - 1)%nat with (steps C B) in *.
  assert ((tb <=? steps C B + 1)%nat = false) as HT' by (apply Nat.leb_gt; exact HT). rewrite HT' in Ndb.
  rewrite E. f_equal. f_equal. apply (nth_ext _ _ None None); [rewrite repeat_length; exact Ldb|]. intros i Hi. rewrite nth_repeat_same. apply Ndb. lia.
Qed.

End Core.

(* ---------------------------------------------------------------- noise-free decoding *)
Section Noiseless.
Context {A X : Type} (add : A -> A -> A) (leb : A -> A -> bool) (zero : A) (g : X -> Z -> A).
Hypothesis leb_refl : forall a, leb a a = true.
Context (C : code) (rsc : bool).
Hypothesis WF : well_formed C.
Hypothesis Hn : (1 <= outs C)%nat.
Local Notation tr := (the_trellis C rsc).
Local Notation k := (kk C).
Local Notation n := (outs C).
Local Notation M := (MM C).
Local Notation dst := (dist add zero g).
Hypothesis leb_both : forall a b c e, leb a c = true -> leb b e = true -> leb (add c e) (add a b) = true -> leb c a = true /\ leb e b = true.
Hypothesis add_mono2 : forall a b c e, leb a c = true -> leb b e = true -> leb (add a b) (add c e) = true.

Definition weak (x : X) (b : Z) := forall b', is_bit b' -> leb (g x b) (g x b') = true.
Definition strict (x : X) (b : Z) := forall b', is_bit b' -> leb (g x b') (g x b) = true -> b' = b.

Lemma dist_weak xs : forall bs bs', length xs = length bs -> length xs = length bs' -> bits bs' ->
  (forall i dx, (i < length xs)%nat -> weak (nth i xs dx) (nth i bs 0)) -> leb (dst xs bs) (dst xs bs') = true.
Proof.
  induction xs as [|x xs IH]; intros [|b bs] [|b' bs'] L L' Hb H; try discriminate; [apply leb_refl|]. cbn [dist]. inversion Hb; subst.
  apply add_mono2; [apply (H 0%nat x ltac:(cbn; lia)); assumption|]. apply IH; cbn in *; try lia; try assumption. intros i dx Hi. apply (H (S i) dx). lia.
Qed.
Lemma dist_unique xs : forall bs bs' p, length xs = length bs -> length xs = length bs' -> bits bs' ->
  (forall i dx, (i < length xs)%nat -> weak (nth i xs dx) (nth i bs 0)) ->
  (forall i dx, (i < p)%nat -> (i < length xs)%nat -> strict (nth i xs dx) (nth i bs 0)) ->
  leb (dst xs bs') (dst xs bs) = true -> firstn p bs' = firstn p bs.
Proof.
  induction xs as [|x xs IH]; intros [|b bs] [|b' bs'] p L L' Hb Hw Hs H; try discriminate; [reflexivity|]. cbn [dist] in H. inversion Hb; subst.
  assert (Hw' : forall i dx, (i < length xs)%nat -> weak (nth i xs dx) (nth i bs 0)) by (intros i dx Hi; apply (Hw (S i) dx); cbn; lia).
  destruct (leb_both (g x b) (dst xs bs) (g x b') (dst xs bs')) as [Q1 Q2]; [apply (Hw 0%nat x ltac:(cbn; lia)); assumption|apply dist_weak; cbn in *; try lia; assumption|exact H|].
  destruct p as [|p]; [reflexivity|]. cbn [firstn]. f_equal.
  - apply (Hs 0%nat x ltac:(lia) ltac:(cbn; lia)); assumption.
  - apply IH; cbn in *; try lia; try assumption. intros i dx Hi Hi'. apply (Hs (S i) dx); lia.
Qed.

Hypothesis Hout : output_injective C.

Lemma out_inj s u u' : 0 <= s < 2 ^ Z.of_nat M -> 0 <= u < 2 ^ Z.of_nat k -> 0 <= u' < 2 ^ Z.of_nat k ->
  entry (tr_out tr) s u = entry (tr_out tr) s u' -> u = u'.
Proof.
  intros Hs Hu Hu' E. apply Hout; try assumption. intros j Hj.
  destruct (step_f C s u) as (_ & _ & H1 & _). destruct (step_f C s u') as (_ & _ & H2 & _).
  rewrite !entry_out in E by assumption. specialize (H1 j Hj). specialize (H2 j Hj). rewrite E in H1. rewrite H1 in H2.
  assert (Hsplit : forall v, line_sum C (fun i d => cell (memory C) s v i d && gcoef C i j d) =
    xorb (xsum (map (fun i => Z.testbit v (Z.of_nat k - 1 - Z.of_nat i) && gcoef C i j 0) (seq 0 k)))
         (line_sum C (fun i d => if (d =? 0)%nat then false else cell (memory C) s 0 i d && gcoef C i j d))).
  { intros v. unfold line_sum. generalize (seq 0 k) as l. induction l as [|i l IH]; [reflexivity|]. cbn [map xsum fold_right]. fold (xsum (map (fun i => Z.testbit v (Z.of_nat k - 1 - Z.of_nat i) && gcoef C i j 0) l)).
    unfold xsum in IH |- *. rewrite IH. cbn [seq map fold_right]. change (0 =? 0)%nat with true. cbn iota.
    assert (Em : map (fun d => cell (memory C) s v i d && gcoef C i j d) (seq 1 (mem C i)) = map (fun d => if (d =? 0)%nat then false else cell (memory C) s 0 i d && gcoef C i j d) (seq 1 (mem C i))).
    { apply map_ext_in. intros d0 Hd. apply in_seq in Hd. destruct d0 as [|d0]; [lia|]. cbn [Nat.eqb]. f_equal. }
    rewrite Em. set (q := fold_right xorb false (map (fun d => if (d =? 0)%nat then false else _) (seq 1 _))).
    unfold cell at 1. change (0 =? 0)%nat with true. cbn iota. fold k.
    set (w := fold_right xorb false (map (fun i => Z.testbit v _ && _) l)). set (z := fold_right xorb false (map _ l)).
    change (Z.of_nat (length (memory C))) with (Z.of_nat k).
    destruct (Z.testbit v (Z.of_nat k - 1 - Z.of_nat i) && gcoef C i j 0), q, w, z; reflexivity. }
  rewrite !Hsplit in H2. set (z := line_sum C _) in H2.
  destruct (xsum (map (fun i => Z.testbit u (Z.of_nat k - 1 - Z.of_nat i) && gcoef C i j 0) (seq 0 k))), (xsum (map (fun i => Z.testbit u' (Z.of_nat k - 1 - Z.of_nat i) && gcoef C i j 0) (seq 0 k))), z;
    cbn [xorb] in H2; congruence.
Qed.

Lemma bits_msb_inj m a b : 0 <= a < 2 ^ Z.of_nat m -> 0 <= b < 2 ^ Z.of_nat m -> bits_msb m a = bits_msb m b -> a = b.
Proof. intros Ha Hb E. rewrite <- (Z.mod_small a (2 ^ Z.of_nat m) Ha), <- (Z.mod_small b (2 ^ Z.of_nat m) Hb), <- !b2d_bits_msb, E. reflexivity. Qed.

Lemma app_inj_len {T} (a b c e : list T) : length a = length c -> a ++ b = c ++ e -> a = c /\ b = e.
Proof. revert c. induction a as [|x a IH]; intros [|y c] L H; try discriminate; [split; [reflexivity|exact H]|]. injection H as -> H. destruct (IH c ltac:(cbn in L; lia) H) as [-> ->]. split; reflexivity. Qed.

Lemma encode_prefix_inj p : forall us us' s, inputs k us -> inputs k us' -> 0 <= s < 2 ^ Z.of_nat M -> length us = length us' ->
  firstn (p * n) (bitstream n (emit (entry (tr_next tr)) (entry (tr_out tr)) s us)) = firstn (p * n) (bitstream n (emit (entry (tr_next tr)) (entry (tr_out tr)) s us')) ->
  firstn p us = firstn p us'.
Proof.
  pose proof (valid_the_trellis C WF rsc Hn) as Hval.
  induction p as [|p IH]; intros us us' s Hu Hu' Hs L H; [reflexivity|].
  destruct us as [|u us], us' as [|u' us']; try discriminate; [reflexivity|]. inversion Hu; subst. inversion Hu'; subst.
  cbn [emit] in H. unfold bitstream in H. cbn [map concat] in H. fold (bitstream n (emit (entry (tr_next tr)) (entry (tr_out tr)) (entry (tr_next tr) s u) us)) in H.
  fold (bitstream n (emit (entry (tr_next tr)) (entry (tr_out tr)) (entry (tr_next tr) s u') us')) in H.
  replace (S p * n)%nat with (n + p * n)%nat in H by lia. rewrite !firstn_app, !bits_msb_length in H. rewrite (firstn_all2 (bits_msb n (entry (tr_out tr) s u))), (firstn_all2 (bits_msb n (entry (tr_out tr) s u'))) in H by (rewrite bits_msb_length; lia).
  replace (n + p * n - n)%nat with (p * n)%nat in H by lia. apply app_inj_len in H; [|rewrite !bits_msb_length; reflexivity]. destruct H as [E H].
  destruct (proj2 (proj2 Hval) s u Hs ltac:(assumption)) as (_ & R1 & _ & O1). destruct (proj2 (proj2 Hval) s u' Hs ltac:(assumption)) as (_ & R2 & _ & O2).
  apply bits_msb_inj in E; [|exact O1|exact O2]. apply out_inj in E; try assumption. subst u'. cbn [firstn]. f_equal. apply (IH us us' (entry (tr_next tr) s u)); try assumption. cbn in L. lia.
Qed.

Lemma encoded_length us : length (encoded tr us) = (length us * n)%nat.
Proof using. unfold encoded. rewrite bitstream_length, emit_length. reflexivity. Qed.
Lemma bits_bitstream m ws : bits (bitstream m ws).
Proof using. unfold bitstream. induction ws as [|w ws IH]; [constructor|]. cbn [map concat]. apply bits_app. split; [apply bits_msb_bits|exact IH]. Qed.

(* if the received values fit the code stream of us, strictly on the first p words, every minimiser agrees with us there *)
Lemma noiseless_min xs us sv p : inputs k us -> minimises (fun a b => leb a b = true) tr (dst xs) sv -> length sv = length us -> length xs = (length us * n)%nat ->
  (forall i dx, (i < length xs)%nat -> weak (nth i xs dx) (nth i (encoded tr us) 0)) ->
  (forall i dx, (i < p * n)%nat -> (i < length xs)%nat -> strict (nth i xs dx) (nth i (encoded tr us) 0)) -> firstn p sv = firstn p us.
Proof.
  intros Hu [Hv Hm] L Lx Hw Hs. apply (encode_prefix_inj p sv us 0); try assumption. { apply zero_range. }
  apply (dist_unique xs); try assumption.
  - change (length xs = length (encoded tr us)). rewrite encoded_length. exact Lx.
  - change (length xs = length (encoded tr sv)). rewrite encoded_length. lia.
  - apply bits_bitstream.
  - apply Hm; [lia|exact Hu].
Qed.
End Noiseless.
