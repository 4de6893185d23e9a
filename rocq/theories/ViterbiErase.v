(* Soft decoding with erased (zero) values. *)
From Coq Require Import Reals Lra.
From Verif Require Import Base UtilModel UtilProofs TrellisModel TrellisSpec TrellisProofs FloatRate ConvProofs ConvCode ConvMore ConvTop
  ViterbiModel ViterbiReal ViterbiSpec ViterbiProofs ViterbiArray ViterbiRun ViterbiCore ViterbiInst ViterbiTop.

Section Agree.
Context {A X : Type} (add : A -> A -> A) (leb : A -> A -> bool) (zero : A) (g : X -> Z -> A).
Hypothesis leb_refl : forall a, leb a a = true.
Hypothesis leb_both : forall a b c e, leb a c = true -> leb b e = true -> leb (add c e) (add a b) = true -> leb c a = true /\ leb e b = true.
Hypothesis add_mono2 : forall a b c e, leb a c = true -> leb b e = true -> leb (add a b) (add c e) = true.
Local Notation dst := (dist add zero g).
Lemma dist_agree xs : forall bs bs', length xs = length bs -> length xs = length bs' -> bits bs' ->
  (forall i dx, (i < length xs)%nat -> weak leb g (nth i xs dx) (nth i bs 0)) -> leb (dst xs bs') (dst xs bs) = true ->
  forall i dx, (i < length xs)%nat -> strict leb g (nth i xs dx) (nth i bs 0) -> nth i bs' 0 = nth i bs 0.
Proof.
  induction xs as [|x xs IH]; intros [|b bs] [|b' bs'] L L' Hb Hw H i dx Hi Hs; try discriminate; [cbn in Hi; lia|]. cbn [dist] in H. inversion Hb; subst.
  assert (Hw' : forall i dx, (i < length xs)%nat -> weak leb g (nth i xs dx) (nth i bs 0)) by (intros i' dx' Hi'; apply (Hw (S i') dx'); cbn; lia).
  destruct (leb_both (g x b) (dst xs bs) (g x b') (dst xs bs')) as [Q1 Q2];
    [apply (Hw 0%nat x ltac:(cbn; lia)); assumption|apply (dist_weak add leb zero g leb_refl {| memory := []; outs := 1; gens := []; fback := None; fmt := MSB |} (le_n 1) leb_both add_mono2); cbn in *; try lia; assumption|exact H|].
  destruct i as [|i]; cbn [nth] in *; [apply Hs; assumption|]. apply (IH bs bs') with (dx := dx); cbn in *; try lia; assumption.
Qed.
End Agree.

Section Known.
Context (C : code) (rsc : bool).
Hypothesis WF : well_formed C.
Hypothesis Hn : (1 <= outs C)%nat.
Local Notation tr := (the_trellis C rsc).
Local Notation k := (kk C).
Local Notation n := (outs C).
Local Notation M := (MM C).

Lemma out_known (K : nat -> bool) s u u' : determines C K -> 0 <= s < 2 ^ Z.of_nat M -> 0 <= u < 2 ^ Z.of_nat k -> 0 <= u' < 2 ^ Z.of_nat k ->
  (forall j, (j < n)%nat -> K j = true -> Z.testbit (entry (tr_out tr) s u) (Z.of_nat n - 1 - Z.of_nat j) = Z.testbit (entry (tr_out tr) s u') (Z.of_nat n - 1 - Z.of_nat j)) -> u = u'.
Proof.
  intros HK Hs Hu Hu' E. apply HK; try assumption. intros j Hj HKj.
  destruct (step_f C s u) as (_ & _ & H1 & _). destruct (step_f C s u') as (_ & _ & H2 & _).
  specialize (E j Hj HKj). rewrite !entry_out in E by assumption. specialize (H1 j Hj). specialize (H2 j Hj). rewrite E in H1. rewrite H1 in H2.
  assert (Hsplit : forall v, line_sum C (fun i d => cell (memory C) s v i d && gcoef C i j d) =
    xorb (xsum (map (fun i => Z.testbit v (Z.of_nat k - 1 - Z.of_nat i) && gcoef C i j 0) (seq 0 k)))
         (line_sum C (fun i d => if (d =? 0)%nat then false else cell (memory C) s 0 i d && gcoef C i j d))).
  { intros v. unfold line_sum. generalize (seq 0 k) as l. induction l as [|i l IH]; [reflexivity|]. cbn [map xsum fold_right]. fold (xsum (map (fun i => Z.testbit v (Z.of_nat k - 1 - Z.of_nat i) && gcoef C i j 0) l)).
    unfold xsum in IH |- *. rewrite IH. cbn [seq map fold_right]. change (0 =? 0)%nat with true. cbn iota.
    assert (Em : map (fun d => cell (memory C) s v i d && gcoef C i j d) (seq 1 (mem C i)) = map (fun d => if (d =? 0)%nat then false else cell (memory C) s 0 i d && gcoef C i j d) (seq 1 (mem C i))).
    { apply map_ext_in. intros d0 Hd. apply in_seq in Hd. destruct d0 as [|d0]; [lia|]. cbn [Nat.eqb]. f_equal. }
    rewrite Em. set (q := fold_right xorb false (map (fun d => if (d =? 0)%nat then false else _) (seq 1 _))).
    unfold cell at 1. change (0 =? 0)%nat with true. cbn iota. fold k.
    set (w := fold_right xorb false (map (fun i => Z.testbit v _ && _) l)). set (z := fold_right xorb false (map _ l)).
    change (Z.of_nat (length (memory C))) with (Z.of_nat k).
    destruct (Z.testbit v (Z.of_nat k - 1 - Z.of_nat i) && gcoef C i j 0), q, w, z; reflexivity. }
  rewrite !Hsplit in H2. set (z := line_sum C _) in H2.
  destruct (xsum (map (fun i => Z.testbit u (Z.of_nat k - 1 - Z.of_nat i) && gcoef C i j 0) (seq 0 k))), (xsum (map (fun i => Z.testbit u' (Z.of_nat k - 1 - Z.of_nat i) && gcoef C i j 0) (seq 0 k))), z;
    cbn [xorb] in H2; congruence.
Qed.

Lemma bits_msb_testbit m v j : (j < m)%nat -> nth j (bits_msb m v) 0 = Z.b2z (Z.testbit v (Z.of_nat m - 1 - Z.of_nat j)).
Proof using. intros H. rewrite bits_msb_nth by exact H. reflexivity. Qed.

Lemma encode_known p : forall us us' s (K : nat -> nat -> bool), inputs k us -> inputs k us' -> 0 <= s < 2 ^ Z.of_nat M -> length us = length us' ->
  (forall t, (t < p)%nat -> determines C (K t)) ->
  (forall t j, (t < p)%nat -> (j < n)%nat -> K t j = true ->
    nth (t * n + j) (bitstream n (emit (entry (tr_next tr)) (entry (tr_out tr)) s us)) 0 = nth (t * n + j) (bitstream n (emit (entry (tr_next tr)) (entry (tr_out tr)) s us')) 0) ->
  firstn p us = firstn p us'.
Proof.
  pose proof (valid_the_trellis C WF rsc Hn) as Hval.
  induction p as [|p IH]; intros us us' s K Hu Hu' Hs L HK H; [reflexivity|].
  destruct us as [|u us], us' as [|u' us']; try discriminate; [reflexivity|]. inversion Hu; subst. inversion Hu'; subst.
  cbn [emit] in H. unfold bitstream in H. cbn [map concat] in H. fold (bitstream n (emit (entry (tr_next tr)) (entry (tr_out tr)) (entry (tr_next tr) s u) us)) in H.
  fold (bitstream n (emit (entry (tr_next tr)) (entry (tr_out tr)) (entry (tr_next tr) s u') us')) in H.
  destruct (proj2 (proj2 Hval) s u Hs ltac:(assumption)) as (_ & R1 & _ & O1). destruct (proj2 (proj2 Hval) s u' Hs ltac:(assumption)) as (_ & R2 & _ & O2).
  assert (E : u = u').
  { apply (out_known (K 0%nat) s); try assumption; [apply HK; lia|]. intros j Hj HKj. specialize (H 0%nat j ltac:(lia) Hj HKj). cbn [Nat.mul Nat.add] in H.
    rewrite !app_nth1 in H by (rewrite bits_msb_length; exact Hj). rewrite !bits_msb_testbit in H by exact Hj. apply Z.b2z_inj in H. exact H. }
  subst u'. cbn [firstn]. f_equal. apply (IH us us' (entry (tr_next tr) s u) (fun t => K (S t))); try assumption; [cbn in L; lia|intros t Ht; apply HK; lia|].
  intros t j Ht Hj HKj. specialize (H (S t) j ltac:(lia) Hj HKj). rewrite !app_nth2 in H by (rewrite bits_msb_length; lia). rewrite !bits_msb_length in H.
  replace (S t * n + j - n)%nat with (t * n + j)%nat in H by lia. exact H.
Qed.

Lemma soft_known us sv tau p xs (K : nat -> nat -> bool) : inputs k us -> length us = tau -> length sv = tau -> length xs = (tau * n)%nat -> (p <= tau)%nat ->
  minimises Rle tr (dist Rplus 0%R nl xs) sv ->
  (forall i dx, (i < length xs)%nat -> weak Rleb nl (nth i xs dx) (nth i (encoded tr us) 0)) ->
  (forall t, (t < p)%nat -> determines C (K t)) ->
  (forall t j dx, (t < p)%nat -> (j < n)%nat -> K t j = true -> strict Rleb nl (nth (t * n + j) xs dx) (nth (t * n + j) (encoded tr us) 0)) -> firstn p sv = firstn p us.
Proof.
  intros Hu L1 L2 Lx Hp [Hv Hm] Hw HK Hs. apply (encode_known p sv us 0 K); try assumption. { apply zero_range. } { lia. }
  intros t j Ht Hj HKj. assert (Hi : (t * n + j < length xs)%nat) by (rewrite Lx; assert ((t + 1) * n <= tau * n)%nat by (apply Nat.mul_le_mono_r; lia); lia).
  apply (dist_agree Rplus Rleb 0%R nl Rleb_refl Rleb_both Rleb_mono2 xs) with (dx := 0%R); try assumption.
  - change (length xs = length (encoded tr us)). rewrite encoded_length. lia.
  - change (length xs = length (encoded tr sv)). rewrite encoded_length. lia.
  - apply bits_bitstream.
  - apply Rleb_iff. apply Hm; [lia|exact Hu].
  - apply Hs; assumption.
Qed.
End Known.

Lemma clip_0 : Rmax (-500) (Rmin 0 500) = 0%R.
Proof. unfold Rmax, Rmin. destruct (Rle_dec 0 500); destruct (Rle_dec _ _); lra. Qed.

Lemma soft_erasures :
forall (garbage : regs) (C : code) (rsc : bool) (tr : Trellis) (us : list Z) (received : list R) (known : nat -> bool) (tb_depth : option nat) gp (gs : nat -> scratch R),
    trellis_of garbage C rsc = Ok tr -> decodable C (length us) gs -> usable C (length us) tb_depth -> inputs (kk C) us ->
    length received = (length us * outs C)%nat ->
    (forall i, (i < length received)%nat -> if known i then carries (nth i received 0%R) (nth i (encoded tr us) 0) else nth i received 0%R = 0%R) ->
    (forall t, (t < length us)%nat -> determines C (fun j => known (t * outs C + j)%nat)) ->
    exists caller, viterbi_decode Rplus Rleb 0%R soft received tr tb_depth gp gs = Ok (map Some (bitstream (kk C) us), caller).
Proof.
  intros garbage C rsc tr us received known o gp gs E HD HU Hu HLr HF HK. pose proof HD as (WF & HI & Hn & HkM & Hm & Hb & Hg). pose proof E as E0. rewrite trellis_of_spec in E by exact WF. injection E as <-.
  destruct (C29_soft_window_proof garbage C rsc (the_trellis C rsc) received (length us) o gp gs E0 HD HU) as (out & caller & sv & E1 & L1 & Hob & Hsv & Hblk); [exact HLr|].
  exists caller. rewrite E1. do 3 f_equal. pose proof HU as (U1 & U2 & U3). pose proof (steps_ge C WF Hn (length us) HkM) as HT.
  apply (out_from_blocks (kk C) (length us)); [apply k_pos; exact WF|exact L1|reflexivity|]. intros b Hlt. rewrite Hblk by exact Hlt.
  set (tau := Nat.min (steps C (length us)) (b + depth C (length us) o - 1)). destruct (Hsv tau) as [Ls Hmin].
  set (clipped := map (fun x => Rmax (-500) (Rmin x 500)) received) in *.
  assert (HLc : length clipped = (length us * outs C)%nat) by (unfold clipped; rewrite map_length; exact HLr).
  assert (HFc : forall i dx, (i < length us * outs C)%nat -> if known i then carries (nth i clipped dx) (nth i (encoded (the_trellis C rsc) us) 0) else nth i clipped dx = 0%R).
  { intros i dx Hi. unfold clipped. rewrite (nth_map_lt (fun x => Rmax (-500) (Rmin x 500)) received i 0%R dx) by lia. specialize (HF i ltac:(lia)). destruct (known i); [apply clip_carries; exact HF|].
    rewrite HF. apply clip_0. }
  assert (Henc : forall i, (i < tau * outs C)%nat -> (i < length us * outs C)%nat -> nth i (encoded (the_trellis C rsc) (seen 1 us 0 tau)) 0 = nth i (encoded (the_trellis C rsc) us) 0).
  { intros i Hi Hi'. unfold seen. rewrite encoded_firstn. rewrite Nat.mul_1_r. rewrite firstn_nth by exact Hi. unfold encoded. rewrite emit_app, bitstream_app. rewrite app_nth1; [reflexivity|]. rewrite bitstream_length, emit_length. exact Hi'. }
  assert (Hfit : forall i dx, (i < tau * outs C)%nat -> (i < length us * outs C)%nat ->
     if known i then carries (nth i (seen (outs C) clipped 0%R tau) dx) (nth i (encoded (the_trellis C rsc) (seen 1 us 0 tau)) 0) else nth i (seen (outs C) clipped 0%R tau) dx = 0%R).
  { intros i dx Hi Hi'. rewrite Henc, seen_nth by assumption. rewrite HLc. assert (i <? length us * outs C = true)%nat as -> by (apply Nat.ltb_lt; exact Hi'). apply HFc. exact Hi'. }
  assert (firstn (Nat.min tau (length us)) (sv tau) = firstn (Nat.min tau (length us)) (seen 1 us 0 tau)) as Heq.
  { apply (soft_known C rsc WF Hn (seen 1 us 0 tau) (sv tau) tau (Nat.min tau (length us)) (seen (outs C) clipped 0%R tau) (fun t j => known (t * outs C + j)%nat)).
    - apply seen_inputs; assumption.
    - rewrite seen_length. lia.
    - exact Ls.
    - apply seen_length.
    - lia.
    - eapply minimises_ext; [|exact Hmin]. intros l. symmetry. apply nll_eq.
    - intros i dx Hi. rewrite seen_length in Hi. destruct (Nat.lt_ge_cases i (length us * outs C)) as [H1|H1].
      + specialize (Hfit i dx Hi H1). destruct (known i); [apply nl_carries, Hfit|]. rewrite Hfit. apply nl_weak0. apply bits_nth. apply bits_bitstream.
      + rewrite seen_nth by exact Hi. rewrite HLc. assert (i <? length us * outs C = false)%nat as -> by (apply Nat.ltb_ge; exact H1).
        apply nl_weak0. apply bits_nth. apply bits_bitstream.
    - intros t Ht. apply HK. lia.
    - intros t j dx Ht Hj HKj.
      assert (H1 : (t * outs C + j < tau * outs C)%nat) by (assert ((t + 1) * outs C <= tau * outs C)%nat by (apply Nat.mul_le_mono_r; lia); lia).
      assert (H2 : (t * outs C + j < length us * outs C)%nat) by (assert ((t + 1) * outs C <= length us * outs C)%nat by (apply Nat.mul_le_mono_r; lia); lia).
      specialize (Hfit (t * outs C + j)%nat dx H1 H2). rewrite HKj in Hfit. apply nl_carries, Hfit. }
  assert (Hbt : (b < Nat.min tau (length us))%nat) by lia.
  rewrite <- (firstn_nth (sv tau) (Nat.min tau (length us)) b 0 Hbt), Heq, firstn_nth by exact Hbt. rewrite seen1_nth by lia. reflexivity.
Qed.
