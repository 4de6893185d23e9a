(* Final forms of the Viterbi theorems (statements repeated in P_Vit.v). *)
From Coq Require Import Reals Lra.
From Verif Require Import Base UtilModel UtilProofs TrellisModel TrellisSpec TrellisProofs FloatRate ConvProofs ConvCode ConvMore ConvTop
  ViterbiModel ViterbiReal ViterbiSpec ViterbiProofs ViterbiArray ViterbiRun ViterbiCore ViterbiInst.

Ltac dec_tac := split; [apply wf_check_ok; reflexivity|split; [left; reflexivity|split; [vm_compute; lia|split; [vm_compute; lia|
  split; [vm_compute; reflexivity|split; [vm_compute; reflexivity|intros ?; split; reflexivity]]]]]].
Ltac bits_tac := repeat (apply Forall_cons; [first [left; reflexivity|right; reflexivity]|]); apply Forall_nil.
Lemma Forall2_length {A B} (P : A -> B -> Prop) l l' : Forall2 P l l' -> length l = length l'.
Proof. induction 1; cbn [length]; congruence. Qed.
Lemma to_some {A X} (add : A -> A -> A) leb zero (d : dtype A X) C rsc (coded : list X) B o gp gs :
  well_formed C -> (1 <= outs C)%nat -> length coded = (B * outs C)%nat -> mul_ok (kk C) (outs C) = true -> Z.of_nat (kk C) * Z.of_nat B < 2 ^ 49 ->
  viterbi_decode add leb zero d coded (the_trellis C rsc) o gp gs = viterbi_decode add leb zero d coded (the_trellis C rsc) (Some (depth C B o)) gp gs.
Proof.
  intros WF Hn HL Hm Hb. destruct o as [x|]; [reflexivity|]. unfold viterbi_decode. change (tr_k (the_trellis C rsc)) with (kk C). change (tr_n (the_trellis C rsc)) with (outs C).
  rewrite HL. pose proof (k_pos C WF). replace (Z.of_nat (B * outs C)) with (Z.of_nat (outs C) * Z.of_nat B) by lia.
  rewrite int_mul_rate_exact by (assumption || lia). replace (Z.to_nat (Z.of_nat (kk C) * Z.of_nat B)) with (B * kk C)%nat by lia. reflexivity.
Qed.
Lemma sqdist_eq a b : dist Rplus 0%R sq a b = sqdist a b. Proof. apply dist_fold. Qed.
Lemma nll_eq a b : dist Rplus 0%R nl a b = nll a b. Proof. apply dist_fold. Qed.
Lemma minimises_ext {A} (le : A -> A -> Prop) tr (f g : list Z -> A) us : (forall l, f l = g l) -> minimises le tr f us -> minimises le tr g us.
Proof. intros H [H1 H2]. split; [exact H1|]. intros us' L Hu. rewrite <- !H. apply H2; assumption. Qed.

Lemma C29_hard_window_proof :
forall (garbage : regs) (C : code) (rsc : bool) (tr : Trellis) (coded : list Z) (B : nat) (tb_depth : option nat) gp (gs : nat -> scratch Z),
    trellis_of garbage C rsc = Ok tr -> decodable C B gs -> usable C B tb_depth -> bits coded -> length coded = (B * outs C)%nat ->
    exists (out caller : list Z) (survivor : nat -> list Z),
      viterbi_decode Z.add Z.leb 0 hard coded tr tb_depth gp gs = Ok (map Some out, caller) /\ length out = (B * kk C)%nat /\ bits out /\
      (forall tau, length (survivor tau) = tau /\ minimises Z.le tr (mismatches (seen (outs C) coded 0 tau)) (survivor tau)) /\
      forall b, (b < B)%nat ->
        slice out (b * kk C) ((b + 1) * kk C) = bits_msb (kk C) (nth b (survivor (Nat.min (steps C B) (b + depth C B tb_depth - 1))) 0).
Proof.
  intros garbage C rsc tr coded B o gp gs E (WF & HI & Hn & HkM & Hm & Hb & Hg) (U1 & U2 & U3) Hbits HL. rewrite trellis_of_spec in E by exact WF. injection E as <-.
  rewrite (to_some _ _ _ _ C rsc coded B o) by assumption.
  destruct (hard_ml C rsc coded B (depth C B o) gp gs WF HI Hn HkM Hbits HL Hm Hb Hg U1 U3 U2) as (out & caller & sv & E & _ & L & Ho & Hsv & Hblk).
  exists out, caller, sv. repeat (split; [assumption|]). exact Hblk.
Qed.

Lemma C29_hard_ties_proof :
forall (garbage : regs) (C : code) (rsc : bool) (tr : Trellis) (coded : list Z) (B : nat) (tb_depth : option nat) gp (gs : nat -> scratch Z),
    trellis_of garbage C rsc = Ok tr -> decodable C B gs -> usable C B tb_depth -> bits coded -> length coded = (B * outs C)%nat ->
    exists (out caller : list Z) (survivor : nat -> list Z),
      viterbi_decode Z.add Z.leb 0 hard coded tr tb_depth gp gs = Ok (map Some out, caller) /\ length out = (B * kk C)%nat /\ bits out /\
      (forall tau, length (survivor tau) = tau /\ minimises Z.le tr (mismatches (seen (outs C) coded 0 tau)) (survivor tau)) /\
      (forall b, (b < B)%nat ->
        slice out (b * kk C) ((b + 1) * kk C) = bits_msb (kk C) (nth b (survivor (Nat.min (steps C B) (b + depth C B tb_depth - 1))) 0)) /\
      forall tau us', length us' = tau -> inputs (kk C) us' -> walk (entry (tr_next tr)) 0 us' = 0 -> walk (entry (tr_next tr)) 0 (survivor tau) <> 0 ->
        mismatches (seen (outs C) coded 0 tau) (encoded tr (survivor tau)) < mismatches (seen (outs C) coded 0 tau) (encoded tr us').
Proof.
  intros garbage C rsc tr coded B o gp gs E (WF & HI & Hn & HkM & Hm & Hb & Hg) (U1 & U2 & U3) Hbits HL. rewrite trellis_of_spec in E by exact WF. injection E as <-.
  rewrite (to_some _ _ _ _ C rsc coded B o) by assumption.
  destruct (hard_ml_ties C rsc coded B (depth C B o) gp gs WF HI Hn HkM Hbits HL Hm Hb Hg U1 U3 U2) as (out & caller & sv & E & _ & L & Ho & Hsv & Hblk & Hties).
  exists out, caller, sv. repeat (split; [assumption|]). exact Hties.
Qed.

Lemma C29_hard_maximum_likelihood_proof :
forall (garbage : regs) (C : code) (rsc : bool) (tr : Trellis) (coded : list Z) (B : nat) gp (gs : nat -> scratch Z),
    trellis_of garbage C rsc = Ok tr -> decodable C B gs -> usable C B (Some (steps C B + 1)%nat) -> bits coded -> length coded = (B * outs C)%nat ->
    exists (us caller : list Z), length us = steps C B /\
      viterbi_decode Z.add Z.leb 0 hard coded tr (Some (steps C B + 1)%nat) gp gs = Ok (map Some (firstn (B * kk C) (bitstream (kk C) us)), caller) /\
      minimises Z.le tr (mismatches (coded ++ repeat 0 ((steps C B - B) * outs C))) us.
Proof.
  intros garbage C rsc tr coded B gp gs E HD HB Hbits HL. pose proof HD as (WF & HI & Hn & HkM & Hm & Hb & Hg). pose proof (steps_ge C WF Hn B HkM) as HT.
  pose proof (k_pos C WF) as Hk.
  destruct (C29_hard_window_proof garbage C rsc tr coded B (Some (steps C B + 1)%nat) gp gs E HD) as (out & caller & sv & E1 & L1 & Hob & Hsv & Hblk); try assumption.
  destruct (Hsv (steps C B)) as [Ls Hmin]. exists (sv (steps C B)), caller. split; [exact Ls|]. split.
  - rewrite E1. do 3 f_equal. rewrite <- bitstream_firstn. apply (out_from_blocks (kk C) B); [exact Hk|exact L1|rewrite firstn_length, Ls; lia|].
    intros b Hlt. rewrite Hblk by exact Hlt. unfold depth. replace (Nat.min (steps C B) (b + (steps C B + 1) - 1)) with (steps C B) by lia.
    rewrite firstn_nth by exact Hlt. reflexivity.
  - assert (seen (outs C) coded 0 (steps C B) = coded ++ repeat 0 ((steps C B - B) * outs C)) as <-; [|exact Hmin].
    rewrite <- (seen_any (outs C) coded 0 (steps C B) ((steps C B - B) * outs C)) by nia. apply firstn_all2. rewrite app_length, repeat_length. nia.
Qed.

Lemma C29_unquantized_window_proof :
forall (garbage : regs) (C : code) (rsc : bool) (tr : Trellis) (coded : list R) (B : nat) (tb_depth : option nat) gp (gs : nat -> scratch R),
    trellis_of garbage C rsc = Ok tr -> decodable C B gs -> usable C B tb_depth -> length coded = (B * outs C)%nat ->
    exists (out : list Z) (caller : list R) (survivor : nat -> list Z),
      viterbi_decode Rplus Rleb 0%R unquantized coded tr tb_depth gp gs = Ok (map Some out, caller) /\ length out = (B * kk C)%nat /\ bits out /\
      (forall tau, length (survivor tau) = tau /\ minimises Rle tr (sqdist (seen (outs C) coded (-1)%R tau)) (survivor tau)) /\
      forall b, (b < B)%nat ->
        slice out (b * kk C) ((b + 1) * kk C) = bits_msb (kk C) (nth b (survivor (Nat.min (steps C B) (b + depth C B tb_depth - 1))) 0).
Proof.
  intros garbage C rsc tr coded B o gp gs E (WF & HI & Hn & HkM & Hm & Hb & Hg) (U1 & U2 & U3) HL. rewrite trellis_of_spec in E by exact WF. injection E as <-.
  rewrite (to_some _ _ _ _ C rsc coded B o) by assumption.
  destruct (real_ml C rsc unquantized sq (-1)%R WF HI Hn HkM unquantized_metric eq_refl coded B (depth C B o) gp gs HL Hm Hb Hg U1 U3 U2) as (out & sv & E & L & Ho & Hsv & Hblk).
  exists out, (caller unquantized (-1)%R C B coded), sv. split; [exact E|]. split; [exact L|]. split; [exact Ho|]. split; [|exact Hblk].
  intros tau. destruct (Hsv tau) as [Ht Hmin]. split; [exact Ht|]. unfold work in Hmin. cbn [d_clip unquantized] in Hmin. eapply minimises_ext; [|exact Hmin]. intros l. apply sqdist_eq.
Qed.

Lemma C29_soft_window_proof :
forall (garbage : regs) (C : code) (rsc : bool) (tr : Trellis) (coded : list R) (B : nat) (tb_depth : option nat) gp (gs : nat -> scratch R),
    trellis_of garbage C rsc = Ok tr -> decodable C B gs -> usable C B tb_depth -> length coded = (B * outs C)%nat ->
    let clipped := map (fun x => Rmax (-500) (Rmin x 500)) coded in
    exists (out : list Z) (caller : list R) (survivor : nat -> list Z),
      viterbi_decode Rplus Rleb 0%R soft coded tr tb_depth gp gs = Ok (map Some out, caller) /\ length out = (B * kk C)%nat /\ bits out /\
      (forall tau, length (survivor tau) = tau /\ minimises Rle tr (nll (seen (outs C) clipped 0%R tau)) (survivor tau)) /\
      forall b, (b < B)%nat ->
        slice out (b * kk C) ((b + 1) * kk C) = bits_msb (kk C) (nth b (survivor (Nat.min (steps C B) (b + depth C B tb_depth - 1))) 0).
Proof.
  intros garbage C rsc tr coded B o gp gs E (WF & HI & Hn & HkM & Hm & Hb & Hg) (U1 & U2 & U3) HL clipped. rewrite trellis_of_spec in E by exact WF. injection E as <-.
  rewrite (to_some _ _ _ _ C rsc coded B o) by assumption.
  destruct (real_ml C rsc soft nl 0%R WF HI Hn HkM soft_metric eq_refl coded B (depth C B o) gp gs HL Hm Hb Hg U1 U3 U2) as (out & sv & E & L & Ho & Hsv & Hblk).
  exists out, (caller soft 0%R C B coded), sv. split; [exact E|]. split; [exact L|]. split; [exact Ho|]. split; [|exact Hblk].
  intros tau. destruct (Hsv tau) as [Ht Hmin]. split; [exact Ht|]. unfold work in Hmin. cbn [d_clip soft] in Hmin. eapply minimises_ext; [|exact Hmin]. intros l. apply nll_eq.
Qed.

Lemma seen_whole n (l : list Z) tau : length l = (tau * n)%nat -> seen n l 0 tau = l.
Proof. intros H. unfold seen. rewrite firstn_app, firstn_all2 by lia. replace (tau * n - length l)%nat with 0%nat by lia. rewrite firstn_O. apply app_nil_r. Qed.
Lemma seen_firstn {X} n (l : list X) pad tau : (tau * n <= length l)%nat -> seen n l pad tau = firstn (tau * n) l.
Proof. intros H. unfold seen. rewrite firstn_app. replace (tau * n - length l)%nat with 0%nat by lia. rewrite firstn_O. apply app_nil_r. Qed.
Lemma terminated_out C us B (gs : nat -> scratch Z) o (out : list Z) (sv : nat -> list Z) : decodable C B gs -> usable C B o ->
  (forall tau, length (sv tau) = tau) -> inputs (kk C) us -> length us = B -> length out = (B * kk C)%nat ->
  (forall tau, (tau <= steps C B)%nat -> sv tau = seen 1 us 0 tau) ->
  (forall b, (b < B)%nat -> slice out (b * kk C) ((b + 1) * kk C) = bits_msb (kk C) (nth b (sv (Nat.min (steps C B) (b + depth C B o - 1))) 0)) ->
  out = bitstream (kk C) us.
Proof.
  intros (WF & HI & Hn & HkM & Hm & Hb & Hg) (U1 & U2 & U3) Hsl Hu Lu Lo Hsv Hblk. pose proof (steps_ge C WF Hn B HkM) as HT.
  apply (out_from_blocks (kk C) B); [apply k_pos; exact WF|exact Lo|exact Lu|]. intros b Hlt. rewrite Hblk by exact Hlt. rewrite Hsv by lia.
  rewrite seen1_nth by lia. reflexivity.
Qed.

Lemma C30_hard_terminated_proof :
forall (garbage : regs) (C : code) (rsc : bool) (tr : Trellis) (us : list Z) (tb_depth : option nat) gp (gs : nat -> scratch Z),
    trellis_of garbage C rsc = Ok tr -> decodable C (length us) gs -> usable C (length us) tb_depth -> output_injective C ->
    inputs (kk C) us -> walk (entry (tr_next tr)) 0 us = 0 ->
    exists caller, viterbi_decode Z.add Z.leb 0 hard (encoded tr us) tr tb_depth gp gs = Ok (map Some (bitstream (kk C) us), caller).
Proof.
  intros garbage C rsc tr us o gp gs E HD HU HO Hu HW. pose proof HD as (WF & HI & Hn & HkM & Hm & Hb & Hg). pose proof E as E0. rewrite trellis_of_spec in E by exact WF. injection E as <-.
  destruct (C29_hard_window_proof garbage C rsc (the_trellis C rsc) (encoded (the_trellis C rsc) us) (length us) o gp gs E0 HD HU) as (out & caller & sv & E1 & L1 & Hob & Hsv & Hblk).
  { apply bits_bitstream. } { apply encoded_length. }
  exists caller. rewrite E1. do 3 f_equal. apply (terminated_out C us (length us) gs o out sv); try assumption; try reflexivity.
  - intros tau. apply Hsv.
  - intros tau Htau. destruct (Hsv tau) as [Ls Hmin].
    apply (hard_block C rsc (seen 1 us 0 tau) (sv tau) tau WF Hn HO).
    + apply seen_inputs; assumption.
    + rewrite seen_length. lia.
    + exact Ls.
    + rewrite seen_encoded by assumption. exact Hmin.
Qed.

Lemma encode_is_encoded C msg coded B : well_formed C -> fback C = None -> (1 <= outs C)%nat -> rate_ok (kk C) (outs C) = true ->
  Z.of_nat (length msg + 2 * MM C) * Z.of_nat (outs C) < 2 ^ 49 -> bits msg -> (length msg + MM C + MM C mod kk C = B * kk C)%nat ->
  (max_mem (memory C) * kk C <= MM C + MM C mod kk C)%nat -> let tr := the_trellis C false in conv_encode msg tr Term None = Ok coded ->
  let us := symbols tr (msg ++ repeat 0 (MM C + MM C mod kk C)) in
  coded = encoded tr us /\ length us = B /\ inputs (kk C) us /\ walk (entry (tr_next tr)) 0 us = 0 /\ bitstream (kk C) us = msg ++ repeat 0 (MM C + MM C mod kk C).
Proof.
  intros WF Hf Hn Hr Hbig2 Hbm HL Hmax tr Henc us. unfold us, tr in *. clear us tr. pose proof (k_pos C WF) as Hk.
  set (padded := msg ++ repeat 0 (MM C + MM C mod kk C)). assert (HLp : length padded = (B * kk C)%nat) by (unfold padded; rewrite app_length, repeat_length; lia).
  assert (Hbp : bits padded) by (apply bits_app; split; [exact Hbm|apply bits_repeat0]).
  destruct (encode_plain_exists C false msg Term WF Hn Hr Hbm (or_intror eq_refl) Hbig2) as (N & HN & _ & Est). cbn zeta in Est. fold padded in Est, HN.
  assert (HdivB : (length padded / kk C = B)%nat) by (rewrite HLp; apply Nat.div_mul; lia).
  assert (HNB : N = (B * outs C)%nat).
  { rewrite HN, HLp. replace (Z.of_nat (B * kk C)) with (Z.of_nat (kk C) * Z.of_nat B) by lia. rewrite int_div_rate_exact; try assumption; try lia.
    pose proof (Nat.mod_le (MM C) (kk C) ltac:(lia)). clear - Hbig2 HL H Hn. assert (Z.of_nat B * Z.of_nat (kk C) <= Z.of_nat (length msg + 2 * MM C)) by lia. nia. }
  assert (Hs : Forall (fun u => 0 <= u < 2 ^ Z.of_nat (kk C)) (symbols (the_trellis C false) padded)) by (apply (symbols_range (the_trellis C false)); exact Hbp).
  unfold conv_encode in Henc. rewrite Est in Henc. cbn [bind fst] in Henc. injection Henc as <-. rewrite HdivB, HNB, Nat.sub_diag. cbn [repeat]. rewrite app_nil_r.
  split; [rewrite <- (emit_the C false) by (exact Hs || apply zero_range); reflexivity|].
  split; [rewrite symbols_length; exact HdivB|]. split; [exact Hs|]. split; [|apply (bitstream_symbols (the_trellis C false) padded B); assumption].
  rewrite walk_the by (exact Hs || apply zero_range). apply term_zero; [exact WF|exact Hf|]. rewrite HL, Nat.div_mul by lia.
    pose proof (Nat.div_mod (length msg + kk C - 1) (kk C) ltac:(lia)) as Hd. pose proof (Nat.mod_upper_bound (length msg + kk C - 1) (kk C) ltac:(lia)). set (q := ((length msg + kk C - 1) / kk C)%nat) in *.
    clear - HL Hmax Hd Hk. set (mm := max_mem (memory C)) in *. set (k := kk C) in *. set (r := ((length msg + k - 1) mod k)%nat) in *. set (z := (MM C mod k)%nat) in *.
    destruct (Nat.le_gt_cases (mm + q) B) as [|Hgt]; [assumption|exfalso].
    pose proof (Nat.mul_le_mono_r (B + 1) (mm + q) k ltac:(lia)) as H1. rewrite !Nat.mul_add_distr_r in H1. rewrite (Nat.mul_comm q k) in H1. lia.
Qed.

Lemma C30_round_trip_proof :
forall (garbage : regs) (C : code) (tr : Trellis) (msg coded : list Z) (B : nat) (tb_depth : option nat) gp (gs : nat -> scratch Z),
    trellis_of garbage C false = Ok tr -> fback C = None -> decodable C B gs -> usable C B tb_depth -> output_injective C -> rate_ok (kk C) (outs C) = true ->
    Z.of_nat (length msg + 2 * MM C) * Z.of_nat (outs C) < 2 ^ 49 ->
    bits msg -> (length msg + MM C + MM C mod kk C = B * kk C)%nat -> (max_mem (memory C) * kk C <= MM C + MM C mod kk C)%nat ->
    conv_encode msg tr Term None = Ok coded ->
    exists caller, viterbi_decode Z.add Z.leb 0 hard coded tr tb_depth gp gs = Ok (map Some (msg ++ repeat 0 (MM C + MM C mod kk C)), caller).
Proof.
  intros garbage C tr msg coded B o gp gs E Hf HD HU HO Hr Hbig2 Hbm HL Hmax Henc. pose proof HD as (WF & HI & Hn & HkM & Hm & Hb & Hg). pose proof E as E0.
  rewrite trellis_of_spec in E by exact WF. injection E as <-.
  destruct (encode_is_encoded C msg coded B WF Hf Hn Hr Hbig2 Hbm HL Hmax Henc) as (Ec & Ls & Hin & Hw & Hbs). set (us := symbols _ _) in *. rewrite <- Hbs. clearbody us. subst coded.
  apply (C30_hard_terminated_proof garbage C false (the_trellis C false) _ o gp gs E0); rewrite ?Ls; assumption.
Qed.

Lemma C30_cont_prefix_proof :
forall (garbage : regs) (C : code) (rsc : bool) (tr : Trellis) (us : list Z) (tb_depth : option nat) gp (gs : nat -> scratch Z) (b : nat),
    trellis_of garbage C rsc = Ok tr -> decodable C (length us) gs -> usable C (length us) tb_depth -> output_injective C -> inputs (kk C) us ->
    (b + depth C (length us) tb_depth - 1 <= length us)%nat ->
    exists out caller, viterbi_decode Z.add Z.leb 0 hard (encoded tr us) tr tb_depth gp gs = Ok (map Some out, caller) /\
      slice out (b * kk C) ((b + 1) * kk C) = bits_msb (kk C) (nth b us 0).
Proof.
  intros garbage C rsc tr us o gp gs b E HD HU HO Hu Hb0. pose proof HD as (WF & HI & Hn & HkM & Hm & Hb & Hg). pose proof HU as (U1 & U2 & U3). pose proof E as E0. rewrite trellis_of_spec in E by exact WF. injection E as <-.
  destruct (C29_hard_window_proof garbage C rsc (the_trellis C rsc) (encoded (the_trellis C rsc) us) (length us) o gp gs E0 HD HU) as (out & caller & sv & E1 & L1 & Hob & Hsv & Hblk).
  { apply bits_bitstream. } { apply encoded_length. }
  exists out, caller. split; [exact E1|]. rewrite Hblk by lia. pose proof (steps_ge C WF Hn (length us) HkM) as HT.
  set (tau := Nat.min (steps C (length us)) (b + depth C (length us) o - 1)). assert (Htau : (b < tau <= length us)%nat) by lia.
  destruct (Hsv tau) as [Ls Hmin]. assert (sv tau = firstn tau us) as ->.
  { apply (hard_block C rsc (firstn tau us) (sv tau) tau WF Hn HO).
    - apply Forall_forall. intros u Hin. unfold inputs in Hu. rewrite Forall_forall in Hu. apply Hu. rewrite <- (firstn_skipn tau). apply in_or_app. left. exact Hin.
    - apply firstn_length_le. lia.
    - exact Ls.
    - rewrite encoded_firstn. rewrite seen_firstn in Hmin by (rewrite encoded_length; nia). exact Hmin. }
  rewrite firstn_nth by lia. reflexivity.
Qed.

Lemma C30_cont_refuted_proof :
exists (C : code) (tr : Trellis) (msg coded : list Z) (gs : nat -> scratch Z), decodable C (length msg) gs /\ usable C (length msg) None /\ output_injective C /\
    trellis_of (fun _ _ => 0) C false = Ok tr /\ bits msg /\ conv_encode msg tr Cont None = Ok coded /\
    exists caller, viterbi_decode Z.add Z.leb 0 hard coded tr None (fun _ _ => 0) gs = Ok (map Some [0; 0; 0; 0; 0; 0; 0; 0], caller) /\ msg = [0; 0; 0; 0; 0; 0; 0; 1].
Proof.
  exists {| memory := [4%nat]; outs := 2; gens := [[1; 30]]; fback := None; fmt := MSB |}. eexists. exists [0; 0; 0; 0; 0; 0; 0; 1]. eexists.
  exists (fun _ => {| pmetrics := repeat None 2; index_array := repeat (0, 0) 16 |}).
  split; [dec_tac|].
  split; [vm_compute; lia|]. split.
  { intros u u' Hu Hu' H. specialize (H 0%nat ltac:(cbn; lia)). change (2 ^ Z.of_nat (kk _)) with 2 in *.
    assert (u = 0 \/ u = 1) as [-> | ->] by lia; assert (u' = 0 \/ u' = 1) as [-> | ->] by lia; try reflexivity; vm_compute in H; discriminate. }
  split; [vm_compute; reflexivity|]. split; [bits_tac|]. split; [vm_compute; reflexivity|]. eexists. split; [vm_compute; reflexivity|reflexivity].
Qed.

Lemma seen_nth {X} n (l : list X) pad tau i dx : (i < tau * n)%nat -> nth i (seen n l pad tau) dx = if (i <? length l)%nat then nth i l dx else pad.
Proof.
  intros H. unfold seen. rewrite firstn_nth by exact H. destruct (Nat.ltb_spec i (length l)) as [H1|H1]; [apply app_nth1; exact H1|].
  rewrite app_nth2 by exact H1. apply nth_repeat_lt. lia.
Qed.

Lemma C30_unquantized_signs_proof :
forall (garbage : regs) (C : code) (rsc : bool) (tr : Trellis) (us : list Z) (received : list R) (tb_depth : option nat) gp (gs : nat -> scratch R),
    trellis_of garbage C rsc = Ok tr -> decodable C (length us) gs -> usable C (length us) tb_depth -> output_injective C ->
    inputs (kk C) us -> walk (entry (tr_next tr)) 0 us = 0 -> Forall2 carries received (encoded tr us) ->
    exists caller, viterbi_decode Rplus Rleb 0%R unquantized received tr tb_depth gp gs = Ok (map Some (bitstream (kk C) us), caller).
Proof.
  intros garbage C rsc tr us received o gp gs E HD HU HO Hu HW HF. pose proof HD as (WF & HI & Hn & HkM & Hm & Hb & Hg). pose proof E as E0. rewrite trellis_of_spec in E by exact WF. injection E as <-.
  pose proof (Forall2_length _ _ _ HF) as HLr. rewrite encoded_length in HLr.
  destruct (C29_unquantized_window_proof garbage C rsc (the_trellis C rsc) received (length us) o gp gs E0 HD HU) as (out & caller & sv & E1 & L1 & Hob & Hsv & Hblk); [exact HLr|].
  exists caller. rewrite E1. do 3 f_equal. pose proof HU as (U1 & U2 & U3). pose proof (steps_ge C WF Hn (length us) HkM) as HT.
  apply (out_from_blocks (kk C) (length us)); [apply k_pos; exact WF|exact L1|reflexivity|]. intros b Hlt. rewrite Hblk by exact Hlt.
  set (tau := Nat.min (steps C (length us)) (b + depth C (length us) o - 1)). destruct (Hsv tau) as [Ls Hmin].
  assert (Hfit : forall i dx, (i < tau * outs C)%nat -> carries (nth i (seen (outs C) received (-1)%R tau) dx) (nth i (encoded (the_trellis C rsc) (seen 1 us 0 tau)) 0)).
  { intros i dx Hi. rewrite seen_encoded by assumption. rewrite !seen_nth by exact Hi. rewrite encoded_length, HLr. destruct (Nat.ltb_spec i (length us * outs C)) as [H1|H1].
    - clear - HF H1 HLr. rewrite <- HLr in H1. revert i H1. clear HLr. induction HF as [|x y l l' Hxy HF IH]; intros i Hi; cbn [length] in Hi; [lia|]. destruct i; cbn [nth]; [exact Hxy|apply IH; lia].
    - right. split; [reflexivity|lra]. }
  assert (firstn tau (sv tau) = firstn tau (seen 1 us 0 tau)) as Heq.
  { apply (real_block C rsc unquantized sq (-1)%R WF Hn HkM unquantized_metric (seen 1 us 0 tau) (sv tau) tau tau (seen (outs C) received (-1)%R tau) HO); try assumption.
    - apply seen_inputs; assumption.
    - rewrite seen_length. lia.
    - apply seen_length.
    - eapply minimises_ext; [|exact Hmin]. intros l. symmetry. apply sqdist_eq.
    - intros i dx Hi. rewrite seen_length in Hi. apply sq_carries. apply Hfit. exact Hi.
    - intros i dx _ Hi. rewrite seen_length in Hi. apply sq_carries. apply Hfit. exact Hi. }
  rewrite !firstn_all2 in Heq by (rewrite ?seen_length; lia).
  rewrite Heq. rewrite seen1_nth by lia. reflexivity.
Qed.

Lemma C30_soft_signs_proof :
forall (garbage : regs) (C : code) (rsc : bool) (tr : Trellis) (us : list Z) (received : list R) (tb_depth : option nat) gp (gs : nat -> scratch R),
    trellis_of garbage C rsc = Ok tr -> decodable C (length us) gs -> usable C (length us) tb_depth -> output_injective C ->
    inputs (kk C) us -> Forall2 carries received (encoded tr us) ->
    exists caller, viterbi_decode Rplus Rleb 0%R soft received tr tb_depth gp gs = Ok (map Some (bitstream (kk C) us), caller).
Proof.
  intros garbage C rsc tr us received o gp gs E HD HU HO Hu HF. pose proof HD as (WF & HI & Hn & HkM & Hm & Hb & Hg). pose proof E as E0. rewrite trellis_of_spec in E by exact WF. injection E as <-.
  pose proof (Forall2_length _ _ _ HF) as HLr. rewrite encoded_length in HLr.
  destruct (C29_soft_window_proof garbage C rsc (the_trellis C rsc) received (length us) o gp gs E0 HD HU) as (out & caller & sv & E1 & L1 & Hob & Hsv & Hblk); [exact HLr|].
  exists caller. rewrite E1. do 3 f_equal. pose proof HU as (U1 & U2 & U3). pose proof (steps_ge C WF Hn (length us) HkM) as HT.
  apply (out_from_blocks (kk C) (length us)); [apply k_pos; exact WF|exact L1|reflexivity|]. intros b Hlt. rewrite Hblk by exact Hlt.
  set (tau := Nat.min (steps C (length us)) (b + depth C (length us) o - 1)). destruct (Hsv tau) as [Ls Hmin].
  set (clipped := map (fun x => Rmax (-500) (Rmin x 500)) received) in *.
  assert (HLc : length clipped = (length us * outs C)%nat) by (unfold clipped; rewrite map_length; exact HLr).
  assert (HFc : Forall2 carries clipped (encoded (the_trellis C rsc) us)).
  { unfold clipped. clear - HF. induction HF as [|x y l l' Hxy HF IH]; [constructor|]. cbn [map]. constructor; [apply clip_carries; exact Hxy|exact IH]. }
  assert (Henc : forall i, (i < tau * outs C)%nat -> (i < length us * outs C)%nat -> nth i (encoded (the_trellis C rsc) (seen 1 us 0 tau)) 0 = nth i (encoded (the_trellis C rsc) us) 0).
  { intros i Hi Hi'. unfold seen. rewrite encoded_firstn. rewrite Nat.mul_1_r. rewrite firstn_nth by exact Hi. unfold encoded. rewrite emit_app, bitstream_app. rewrite app_nth1; [reflexivity|]. rewrite bitstream_length, emit_length. exact Hi'. }
  assert (Hfit : forall i dx, (i < tau * outs C)%nat -> (i < length us * outs C)%nat -> carries (nth i (seen (outs C) clipped 0%R tau) dx) (nth i (encoded (the_trellis C rsc) (seen 1 us 0 tau)) 0)).
  { intros i dx Hi Hi'. rewrite Henc, seen_nth by assumption. rewrite HLc. assert (i <? length us * outs C = true)%nat as -> by (apply Nat.ltb_lt; exact Hi').
    clear - HFc Hi' HLc. rewrite <- HLc in Hi'. revert i Hi'. clear HLc. induction HFc as [|x y l l' Hxy HF IH]; intros i Hi; cbn [length] in Hi; [lia|]. destruct i; cbn [nth]; [exact Hxy|apply IH; lia]. }
  assert (firstn (Nat.min tau (length us)) (sv tau) = firstn (Nat.min tau (length us)) (seen 1 us 0 tau)) as Heq.
  { apply (real_block C rsc soft nl 0%R WF Hn HkM soft_metric (seen 1 us 0 tau) (sv tau) tau (Nat.min tau (length us)) (seen (outs C) clipped 0%R tau) HO); try assumption.
    - apply seen_inputs; assumption.
    - rewrite seen_length. lia.
    - apply seen_length.
    - eapply minimises_ext; [|exact Hmin]. intros l. symmetry. apply nll_eq.
    - intros i dx Hi. rewrite seen_length in Hi. destruct (Nat.lt_ge_cases i (length us * outs C)) as [H1|H1].
      + apply nl_carries. apply Hfit; assumption.
      + rewrite seen_nth by exact Hi. rewrite HLc. assert (i <? length us * outs C = false)%nat as -> by (apply Nat.ltb_ge; exact H1).
        apply nl_weak0. apply bits_nth. apply bits_bitstream.
    - intros i dx Hp Hi. rewrite seen_length in Hi. apply nl_carries. apply Hfit; [exact Hi|nia]. }
  assert (Hbt : (b < Nat.min tau (length us))%nat) by lia.
  rewrite <- (firstn_nth (sv tau) (Nat.min tau (length us)) b 0 Hbt), Heq, firstn_nth by exact Hbt. rewrite seen1_nth by lia. reflexivity.
Qed.

Lemma C31_hard_overwrites_proof :
forall (garbage : regs) (C : code) (rsc : bool) (tr : Trellis) (coded : list Z) (B : nat) (tb_depth : option nat) gp (gs : nat -> scratch Z),
    trellis_of garbage C rsc = Ok tr -> decodable C B gs -> usable C B tb_depth -> bits coded -> length coded = (B * outs C)%nat -> (1 <= B)%nat ->
    exists out caller, viterbi_decode Z.add Z.leb 0 hard coded tr tb_depth gp gs = Ok (out, caller) /\
      ((MM C < 2 * kk C)%nat -> caller = coded) /\
      ((2 * kk C <= MM C)%nat -> caller = firstn ((B - 1) * outs C) coded ++ repeat 0 (outs C)).
Proof.
  intros garbage C rsc tr coded B o gp gs E (WF & HI & Hn & HkM & Hm & Hb & Hg) (U1 & U2 & U3) Hbits HL HB. rewrite trellis_of_spec in E by exact WF. injection E as <-.
  rewrite (to_some _ _ _ _ C rsc coded B o) by assumption. pose proof (k_pos C WF) as Hk.
  destruct (hard_ml C rsc coded B (depth C B o) gp gs WF HI Hn HkM Hbits HL Hm Hb Hg U1 U3 U2) as (out & caller & sv & E & Hc & _).
  exists (map Some out), caller. split; [exact E|]. assert (HB0 : (B =? 0)%nat = false) by (apply Nat.eqb_neq; lia). rewrite HB0, orb_false_r in Hc. subst caller.
  assert (Hst : steps C B = (B + MM C / kk C - 1)%nat) by (unfold steps; rewrite Nat.div_add_l by lia; reflexivity).
  pose proof (Nat.div_mod (MM C) (kk C) ltac:(lia)) as Hd. pose proof (Nat.mod_upper_bound (MM C) (kk C) ltac:(lia)). set (q := (MM C / kk C)%nat) in *.
  split; intros H1.
  - assert (q < 2)%nat by nia. assert (steps C B <=? B = true)%nat as -> by (apply Nat.leb_le; lia). reflexivity.
  - assert (2 <= q)%nat by nia. assert (steps C B <=? B = false)%nat as -> by (apply Nat.leb_gt; lia). reflexivity.
Qed.

Lemma C31_unquantized_overwrites_proof :
forall (garbage : regs) (C : code) (rsc : bool) (tr : Trellis) (coded : list R) (B : nat) (tb_depth : option nat) gp (gs : nat -> scratch R),
    trellis_of garbage C rsc = Ok tr -> decodable C B gs -> usable C B tb_depth -> length coded = (B * outs C)%nat -> (1 <= B)%nat ->
    exists out caller, viterbi_decode Rplus Rleb 0%R unquantized coded tr tb_depth gp gs = Ok (out, caller) /\
      ((MM C < 2 * kk C)%nat -> caller = coded) /\
      ((2 * kk C <= MM C)%nat -> caller = firstn ((B - 1) * outs C) coded ++ repeat (-1)%R (outs C)).
Proof.
  intros garbage C rsc tr coded B o gp gs E (WF & HI & Hn & HkM & Hm & Hb & Hg) (U1 & U2 & U3) HL HB. rewrite trellis_of_spec in E by exact WF. injection E as <-.
  rewrite (to_some _ _ _ _ C rsc coded B o) by assumption. pose proof (k_pos C WF) as Hk.
  destruct (real_ml C rsc unquantized sq (-1)%R WF HI Hn HkM unquantized_metric eq_refl coded B (depth C B o) gp gs HL Hm Hb Hg U1 U3 U2) as (out & sv & E & _).
  exists (map Some out). eexists. split; [exact E|]. assert (HB0 : (B =? 0)%nat = false) by (apply Nat.eqb_neq; lia). unfold caller. cbn [d_clip unquantized]. rewrite HB0, orb_false_r.
  rewrite (skipn_all2 (n := (B * outs C)%nat)) by lia. rewrite app_nil_r.
  assert (Hst : steps C B = (B + MM C / kk C - 1)%nat) by (unfold steps; rewrite Nat.div_add_l by lia; reflexivity).
  pose proof (Nat.div_mod (MM C) (kk C) ltac:(lia)) as Hd. pose proof (Nat.mod_upper_bound (MM C) (kk C) ltac:(lia)). set (q := (MM C / kk C)%nat) in *.
  split; intros H1.
  - assert (q < 2)%nat by nia. assert (steps C B <=? B = true)%nat as -> by (apply Nat.leb_le; lia). reflexivity.
  - assert (2 <= q)%nat by nia. assert (steps C B <=? B = false)%nat as -> by (apply Nat.leb_gt; lia). reflexivity.
Qed.

Lemma C31_soft_untouched_proof :
forall (tr : Trellis) (coded : list R) (tb_depth : option nat) gp (gs : nat -> scratch R) out caller,
    viterbi_decode Rplus Rleb 0%R soft coded tr tb_depth gp gs = Ok (out, caller) -> caller = coded.
Proof.
  intros tr coded o gp gs out caller E. unfold viterbi_decode in E. cbv zeta in E. destruct (mat_set _ 0 0 0) as [paths|]; cbn [bind] in E; [|discriminate].
  destruct (foldM _ _ _) as [v|]; cbn [bind] in E; [|discriminate]. cbn [d_clip soft] in E. injection E as _ <-. reflexivity.
Qed.

Lemma C32_rate_1_n_default_depth_proof :
forall (garbage : regs) (C : code) (rsc : bool) (tr : Trellis) (coded : list Z) (B : nat) gp (gs : nat -> scratch Z),
    trellis_of garbage C rsc = Ok tr -> decodable C B gs -> kk C = 1%nat -> (2 <= B)%nat -> (MM C <= B + 1)%nat -> bits coded -> length coded = (B * outs C)%nat ->
    exists out caller, viterbi_decode Z.add Z.leb 0 hard coded tr None gp gs = Ok (map Some out, caller) /\ length out = B /\ bits out.
Proof.
  intros garbage C rsc tr coded B gp gs E HD Hk1 HB HMB Hbits HL. pose proof HD as (WF & HI & Hn & HkM & Hm & Hb & Hg).
  destruct (C29_hard_window_proof garbage C rsc tr coded B None gp gs E HD) as (out & caller & sv & E1 & L1 & Hob & _); try assumption.
  { unfold usable, depth, steps. rewrite Hk1 in *. rewrite Nat.div_1_r. lia. }
  exists out, caller. split; [exact E1|]. split; [lia|exact Hob].
Qed.

Lemma C32_nothing_written_proof :
forall (garbage : regs) (C : code) (rsc : bool) (tr : Trellis) (coded : list Z) (B : nat) (tb_depth : option nat) gp (gs : nat -> scratch Z),
    trellis_of garbage C rsc = Ok tr -> decodable C B gs -> length coded = (B * outs C)%nat ->
    (2 <= depth C B tb_depth)%nat -> (MM C <= depth C B tb_depth + kk C)%nat -> (steps C B + 1 < depth C B tb_depth)%nat ->
    exists caller, viterbi_decode Z.add Z.leb 0 hard coded tr tb_depth gp gs = Ok (repeat None (B * kk C), caller).
Proof.
  intros garbage C rsc tr coded B o gp gs E (WF & HI & Hn & HkM & Hm & Hb & Hg) HL U1 U3 U2. rewrite trellis_of_spec in E by exact WF. injection E as <-.
  rewrite (to_some _ _ _ _ C rsc coded B o) by assumption. eexists.
  apply (vit_nothing Z.add Z.leb 0 lx) with (pad := 0); try assumption; try (intros; lia); try reflexivity.
  intros r i H _. apply hard_metric. exact H.
Qed.

Lemma C32_default_depth_refuted_proof :
exists (C : code) (tr : Trellis) (msg coded : list Z) (caller : list Z) (gs : nat -> scratch Z), decodable C 4 gs /\ trellis_of (fun _ _ => 0) C false = Ok tr /\
    bits msg /\ conv_encode msg tr Term None = Ok coded /\
    viterbi_decode Z.add Z.leb 0 hard coded tr None (fun _ _ => 0) gs = Ok (repeat None 8, caller).
Proof.
  exists {| memory := [2%nat; 1%nat]; outs := 3; gens := [[5; 7; 0]; [0; 2; 3]]; fback := None; fmt := MSB |}. eexists. exists [1; 1; 1; 1]. eexists. eexists.
  exists (fun _ => {| pmetrics := repeat None 4; index_array := repeat (0, 0) 8 |}).
  split; [dec_tac|].
  split; [vm_compute; reflexivity|]. split; [bits_tac|]. split; [vm_compute; reflexivity|]. vm_compute. reflexivity.
Qed.

Lemma run_unfold {A X} (add : A -> A -> A) leb zero (d : dtype A X) C rsc (coded : list X) B tb gp gs :
  well_formed C -> (1 <= outs C)%nat -> length coded = (B * outs C)%nat -> mul_ok (kk C) (outs C) = true -> Z.of_nat (kk C) * Z.of_nat B < 2 ^ 49 -> (1 <= tb)%nat -> (1 <= steps C B)%nat ->
  exists v, (length (v_pm v) = 2 ^ MM C)%nat /\ v_tb v = 1%nat /\ mat (the_trellis C rsc) (v_paths v) tb /\ mat (the_trellis C rsc) (v_syms v) tb /\
    v_coded v = match d_clip d with Some f => map f coded | None => coded end /\
  (forall e, vstep add leb d (the_trellis C rsc) (B * kk C) tb gs v 1 = Err e -> viterbi_decode add leb zero d coded (the_trellis C rsc) (Some tb) gp gs = Err e).
Proof.
  intros WF Hn HL Hm Hb Htb HT. unfold viterbi_decode. change (tr_k (the_trellis C rsc)) with (kk C). change (tr_n (the_trellis C rsc)) with (outs C).
  rewrite HL. pose proof (k_pos C WF). replace (Z.of_nat (B * outs C)) with (Z.of_nat (outs C) * Z.of_nat B) by lia.
  rewrite int_mul_rate_exact by (assumption || lia). replace (Z.to_nat (Z.of_nat (kk C) * Z.of_nat B)) with (B * kk C)%nat by lia. cbv zeta.
  rewrite mat_set_ok; cycle 1.
  { rewrite map_seq_length. apply (NS_pos (the_trellis C rsc)). } { rewrite nth_map_seq by apply (NS_pos (the_trellis C rsc)). rewrite map_seq_length. lia. }
  cbn [bind]. set (v0 := {| v_coded := _ |}). exists v0. unfold v0. cbn [v_pm v_tb v_paths v_syms v_coded].
  split; [rewrite upd_length, repeat_length; reflexivity|]. split; [reflexivity|].
  split. { split; [rewrite upd_length; apply map_seq_length|]. intros s Hs. rewrite nth_upd. destruct ((s =? 0)%nat && _).
      - rewrite upd_length, nth_map_seq by apply (NS_pos (the_trellis C rsc)). apply map_seq_length.
      - rewrite nth_map_seq by exact Hs. apply map_seq_length. }
  split. { split; [apply repeat_length|]. intros s Hs. rewrite nth_repeat_lt by exact Hs. apply repeat_length. }
  split; [reflexivity|]. intros e He. change (tr_M (the_trellis C rsc)) with (MM C). change ((B * kk C + MM C) / kk C - 1)%nat with (steps C B).
  replace (steps C B) with (S (steps C B - 1)) by lia. cbn [seq foldM]. rewrite He. reflexivity.
Qed.
Lemma vstep_first_err {A X} (add : A -> A -> A) leb (d : dtype A X) C rsc (coded : list X) B tb gs v e : well_formed C -> (1 <= B)%nat -> v_coded v = coded ->
  acs_loop add leb d (the_trellis C rsc) (slice coded 0 (outs C)) (v_pm v) (v_tb v) (gs 1%nat, v_pm v, v_paths v, v_syms v) = Err e ->
  vstep add leb d (the_trellis C rsc) (B * kk C) tb gs v 1 = Err e.
Proof.
  intros WF HB Hc He. pose proof (k_pos C WF). unfold vstep. change (tr_k (the_trellis C rsc)) with (kk C). change (tr_n (the_trellis C rsc)) with (outs C). rewrite Nat.div_mul by lia.
  assert (1 <=? B = true)%nat as -> by (apply Nat.leb_le; exact HB). cbn [bind]. rewrite Hc. replace ((1 - 1) * outs C)%nat with 0%nat by lia. rewrite Nat.mul_1_l, He. reflexivity.
Qed.
Lemma bind_err {A B} (x : res A) (f : A -> res B) e : x = Err e -> bind x f = Err e. Proof. intros ->. reflexivity. Qed.

Lemma C32_depth_too_small_proof :
forall (garbage : regs) (C : code) (rsc : bool) (tr : Trellis) (coded : list Z) (B : nat) (tb_depth : option nat) gp (gs : nat -> scratch Z),
    trellis_of garbage C rsc = Ok tr -> decodable C B gs -> length coded = (B * outs C)%nat -> (1 <= B)%nat -> (depth C B tb_depth <= 1)%nat ->
    viterbi_decode Z.add Z.leb 0 hard coded tr tb_depth gp gs = Err IndexError.
Proof.
  intros garbage C rsc tr coded B o gp gs E (WF & HI & Hn & HkM & Hm & Hb & Hg) HL HB HT. rewrite trellis_of_spec in E by exact WF. injection E as <-.
  rewrite (to_some _ _ _ _ C rsc coded B o) by assumption. pose proof (steps_ge C WF Hn B HkM) as Hst.
  destruct (depth C B o) as [|[|x]]; [| |lia].
  - unfold viterbi_decode. cbv zeta. unfold mat_set. rewrite (py_get_ok _ 0 []) by (rewrite map_seq_length; apply (NS_pos (the_trellis C rsc))). cbn [bind].
    rewrite nth_map_seq by apply (NS_pos (the_trellis C rsc)). reflexivity.
  - destruct (run_unfold Z.add Z.leb 0 hard C rsc coded B 1 gp gs WF Hn HL Hm Hb ltac:(lia) ltac:(lia)) as (v & V1 & V2 & V3 & V4 & V5 & Hrun).
    apply Hrun. apply (vstep_first_err _ _ _ C rsc coded); try assumption. unfold acs_loop. pose proof (NS_pos (the_trellis C rsc)) as Hpos.
    replace (number_states (the_trellis C rsc)) with (S (number_states (the_trellis C rsc) - 1)) by lia. cbn [seq foldM].
    assert (Ztr : forall a b c, (a <=? b) = true -> (b <=? c) = true -> (a <=? c) = true) by (intros a b c; rewrite !Z.leb_le; lia).
    assert (Zto : forall a b, (a <=? b) = true \/ (b <=? a) = true) by (intros a b; rewrite !Z.leb_le; lia).
    assert (Hmet : forall r i : list Z, length r = tr_n (the_trellis C rsc) -> length i = tr_n (the_trellis C rsc) -> bits i -> d_metric hard r i = Ok (dist Z.add 0 lx r i))
      by (intros r i Hr Hi _; apply hard_metric; congruence).
    destruct (acs_state_ok Z.add Z.leb 0 Z.leb_refl Ztr Zto (the_trellis C rsc) hard (dist Z.add 0 lx) (fun _ => @nil Z) (valid_the_trellis C WF rsc Hn)
      (where_count C rsc WF HI) HkM Hmet (slice coded 0 (outs C)) (v_pm v) (gs 1%nat) 0%nat) as (sc' & Ea & _).
    { rewrite slice_length by nia. cbn. lia. } { exact V1. } { apply Hg. } { exact Hpos. }
    apply bind_err. rewrite Ea. cbn [bind]. rewrite py_set_ok by (rewrite V1; exact Hpos). cbn [bind]. apply bind_err. rewrite V2. unfold mat_set.
    destruct V3 as [V3 V3']. rewrite (py_get_ok (v_paths v) 0 []) by lia. cbn [bind]. apply bind_err. specialize (V3' 0%nat Hpos).
    unfold py_set, py_idx. rewrite V3'. reflexivity.
Qed.

Lemma C32_more_inputs_than_states_proof :
forall (garbage : regs) (C : code) (rsc : bool) (tr : Trellis) (coded : list Z) (B : nat) (tb_depth : option nat) gp (gs : nat -> scratch Z),
    trellis_of garbage C rsc = Ok tr -> well_formed C -> fback C = None \/ input_injective C -> (1 <= outs C)%nat -> (MM C < kk C)%nat ->
    mul_ok (kk C) (outs C) = true -> Z.of_nat (kk C) * Z.of_nat B < 2 ^ 49 -> shaped C gs -> length coded = (B * outs C)%nat -> (2 <= B)%nat ->
    viterbi_decode Z.add Z.leb 0 hard coded tr tb_depth gp gs = Err IndexError.
Proof.
  intros garbage C rsc tr coded B o gp gs E WF HI Hn HkM Hm Hb Hg HL HB. rewrite trellis_of_spec in E by exact WF. injection E as <-. pose proof (k_pos C WF) as Hk.
  rewrite (to_some _ _ _ _ C rsc coded B o) by assumption. assert (Hst : (1 <= steps C B)%nat).
  { unfold steps. rewrite Nat.div_add_l by lia. generalize (MM C / kk C)%nat. clear - HB. lia. }
  destruct (Nat.eq_dec (depth C B o) 0) as [E0|E0].
  - rewrite E0. unfold viterbi_decode. cbv zeta. unfold mat_set. rewrite (py_get_ok _ 0 []) by (rewrite map_seq_length; apply (NS_pos (the_trellis C rsc))). cbn [bind].
    rewrite nth_map_seq by apply (NS_pos (the_trellis C rsc)). reflexivity.
  - destruct (run_unfold Z.add Z.leb 0 hard C rsc coded B (depth C B o) gp gs WF Hn HL Hm Hb ltac:(lia) Hst) as (v & V1 & V2 & V3 & V4 & V5 & Hrun).
    apply Hrun. apply (vstep_first_err _ _ _ C rsc coded); try assumption; try lia. unfold acs_loop. pose proof (NS_pos (the_trellis C rsc)) as Hpos.
    replace (number_states (the_trellis C rsc)) with (S (number_states (the_trellis C rsc) - 1)) by lia. cbn [seq foldM].
    apply bind_err. apply bind_err. unfold acs_state. cbv zeta. rewrite (where_count C rsc WF HI 0 Hpos). rewrite (proj2 (Hg 1%nat)).
    change (number_inputs (the_trellis C rsc)) with (2 ^ kk C)%nat. assert (2 ^ MM C <? 2 ^ kk C = true)%nat as -> by (apply Nat.ltb_lt; apply Nat.pow_lt_mono_r; lia). reflexivity.
Qed.

Lemma C33_unknown_type_proof :
forall (A X : Type) (add : A -> A -> A) (leb : A -> A -> bool) (zero : A) (garbage : regs) (C : code) (rsc : bool) (tr : Trellis) (coded : list X) (B : nat)
         (tb_depth : option nat) gp (gs : nat -> scratch A),
    trellis_of garbage C rsc = Ok tr -> decodable C B gs -> length coded = (B * outs C)%nat -> (1 <= B)%nat -> (1 <= depth C B tb_depth)%nat ->
    viterbi_decode add leb zero unknown_type coded tr tb_depth gp gs = Err TypeError.
Proof.
  intros A X add leb zero garbage C rsc tr coded B o gp gs E (WF & HI & Hn & HkM & Hm & Hb & Hg) HL HB HT. rewrite trellis_of_spec in E by exact WF. injection E as <-.
  rewrite (to_some _ _ _ _ C rsc coded B o) by assumption. pose proof (steps_ge C WF Hn B HkM) as Hst.
  destruct (run_unfold add leb zero unknown_type C rsc coded B (depth C B o) gp gs WF Hn HL Hm Hb HT ltac:(lia)) as (v & V1 & V2 & V3 & V4 & V5 & Hrun).
  apply Hrun. apply (vstep_first_err _ _ _ C rsc coded); try assumption. unfold acs_loop. pose proof (NS_pos (the_trellis C rsc)) as Hpos.
  replace (number_states (the_trellis C rsc)) with (S (number_states (the_trellis C rsc) - 1)) by lia. cbn [seq foldM].
  apply bind_err. apply bind_err. unfold acs_state. cbv zeta. pose proof (where_count C rsc WF HI 0 Hpos) as Hcnt. change (Z.of_nat 0) with 0 in *.
  assert (Hle : (2 ^ kk C <= 2 ^ MM C)%nat) by (apply Nat.pow_le_mono_r; lia). change (number_inputs (the_trellis C rsc)) with (2 ^ kk C)%nat in Hcnt.
  rewrite Hcnt, (proj2 (Hg 1%nat)). assert (2 ^ MM C <? 2 ^ kk C = false)%nat as -> by (apply Nat.ltb_ge; lia).
  destruct (where_list (the_trellis C rsc) 0) as [|[p u] l] eqn:Ew.
  { cbn in Hcnt. pose proof (Nat.pow_nonzero 2 (kk C) ltac:(lia)). lia. }
  assert (Hpu : In (p, u) (where_list (the_trellis C rsc) 0)) by (rewrite Ew; left; reflexivity). apply in_where in Hpu. destruct Hpu as (P1 & P2 & _).
  destruct (proj2 (proj2 (valid_the_trellis C WF rsc Hn)) p u P1 P2) as (_ & _ & O1 & O2).
  replace (2 ^ kk C)%nat with (S (2 ^ kk C - 1)) by (pose proof (Nat.pow_nonzero 2 (kk C) ltac:(lia)); lia). apply bind_err. cbn [seq foldM]. apply bind_err. change (Z.of_nat 0) with 0. 
  change (py_get (((p, u) :: l) ++ skipn (S (2 ^ kk C - 1)) (index_array (gs 1%nat))) 0) with (py_get (((p, u) :: l) ++ skipn (S (2 ^ kk C - 1)) (index_array (gs 1%nat))) (Z.of_nat 0)).
  rewrite (py_get_ok _ 0 (0, 0)) by (cbn; lia). cbn [bind app nth fst snd]. rewrite O1. cbn [bind]. unfold dec2bitarray. change (tr_n (the_trellis C rsc)) with (outs C) in *. rewrite decimal2bitarray_ok by exact O2. reflexivity.
Qed.

Lemma mismatches_cons x a y b : mismatches (x :: a) (y :: b) = (if x =? y then 0 else 1) + mismatches a b.
Proof. unfold mismatches. cbn [combine filter fst snd]. destruct (x =? y); cbn [negb length]; lia. Qed.
Lemma mismatches_nonneg a b : 0 <= mismatches a b. Proof. unfold mismatches. lia. Qed.
Lemma mismatches_sym a : forall b, mismatches a b = mismatches b a.
Proof. induction a as [|x a IH]; intros [|y b]; try reflexivity. rewrite !mismatches_cons, IH, (Z.eqb_sym x y). reflexivity. Qed.
Lemma mismatches_triangle a : forall b c, length a = length b -> length b = length c -> mismatches a c <= mismatches a b + mismatches b c.
Proof.
  induction a as [|x a IH]; intros [|y b] [|z c] H1 H2; cbn [length] in H1, H2; try lia; [apply Z.le_refl|]. rewrite !mismatches_cons. injection H1 as H1. injection H2 as H2. specialize (IH b c H1 H2).
  destruct (Z.eqb_spec x y), (Z.eqb_spec y z), (Z.eqb_spec x z); subst; lia.
Qed.
Lemma mismatches_weight a : forall b, length a = length b -> mismatches a b = weight (xorl a b).
Proof.
  induction a as [|x a IH]; intros [|y b] H; try discriminate; [reflexivity|]. injection H as H. rewrite mismatches_cons, xorl_cons, IH by exact H. unfold weight. cbn [filter].
  pose proof (Z.lxor_eq x y). destruct (Z.eqb_spec x y) as [->|N]; [rewrite Z.lxor_nilpotent; cbn [Z.eqb negb]; lia|].
  destruct (Z.eqb_spec (Z.lxor x y) 0) as [E|_]; [apply H0 in E; contradiction|]. cbn [negb length]. lia.
Qed.
Lemma mismatches_firstn m a : forall b, mismatches (firstn m a) (firstn m b) <= mismatches a b.
Proof.
  revert a. induction m as [|m IH]; intros [|x a] [|y b]; cbn [firstn]; try (rewrite mismatches_nonneg; apply Z.le_refl); try apply mismatches_nonneg; try apply Z.le_refl.
  rewrite !mismatches_cons. specialize (IH a b). lia.
Qed.
Lemma mismatches_app_same a : forall b c, length a = length b -> mismatches (a ++ c) (b ++ c) = mismatches a b.
Proof.
  induction a as [|x a IH]; intros [|y b] c H; try discriminate.
  - cbn [app]. induction c as [|z c IHc]; [reflexivity|]. rewrite mismatches_cons, Z.eqb_refl, IHc. reflexivity.
  - cbn [app]. rewrite !mismatches_cons, IH by (injection H; auto). reflexivity.
Qed.
Lemma encoded_xor C rsc us us' : well_formed C -> inputs (kk C) us -> inputs (kk C) us' -> length us = length us' ->
  encoded (the_trellis C rsc) (xorl us us') = xorl (encoded (the_trellis C rsc) us) (encoded (the_trellis C rsc) us').
Proof.
  intros WF H1 H2 HL. unfold encoded. rewrite !emit_the; try assumption; try apply zero_range.
  - rewrite <- (Z.lxor_0_l 0) at 1. rewrite emit_xor by exact HL. apply bitstream_xor. rewrite !emit_length. exact HL.
  - clear WF. revert us' H2 HL. induction H1 as [|u us Hu H1 IH]; intros [|u' us'] H2 HL; try discriminate; [constructor|]. rewrite xorl_cons. inversion H2; subst.
    constructor; [apply lxor_range; assumption|]. apply IH; [assumption|]. cbn in HL. lia.
Qed.

Lemma C65_symbol_corrected_proof :
forall (garbage : regs) (C : code) (rsc : bool) (tr : Trellis) (us received : list Z) (tb_depth : option nat) gp (gs : nat -> scratch Z) (b : nat),
    trellis_of garbage C rsc = Ok tr -> decodable C (length us) gs -> usable C (length us) tb_depth -> inputs (kk C) us ->
    bits received -> length received = (length us * outs C)%nat -> (b < length us)%nat ->
    let tau := Nat.min (steps C (length us)) (b + depth C (length us) tb_depth - 1) in
    (tau <= length us)%nat \/ walk (entry (tr_next tr)) 0 us = 0 ->
    (forall e, length e = tau -> inputs (kk C) e -> nth b e 0 <> 0 ->
       2 * mismatches (firstn (tau * outs C) received) (firstn (tau * outs C) (encoded tr us)) < weight (encoded tr e)) ->
    exists out caller, viterbi_decode Z.add Z.leb 0 hard received tr tb_depth gp gs = Ok (map Some out, caller) /\ length out = (length us * kk C)%nat /\
      slice out (b * kk C) ((b + 1) * kk C) = bits_msb (kk C) (nth b us 0).
Proof.
  intros garbage C rsc tr us rc o gp gs b E HD HU Hu Hrb HrL Hb0 tau Htau Hd. pose proof HD as (WF & HI & Hn & HkM & Hm & Hb & Hg). pose proof HU as (U1 & U2 & U3). pose proof E as E0. rewrite trellis_of_spec in E by exact WF. injection E as <-.
  destruct (C29_hard_window_proof garbage C rsc (the_trellis C rsc) rc (length us) o gp gs E0 HD HU Hrb HrL) as (out & caller & sv & E1 & L1 & Hob & Hsv & Hblk).
  exists out, caller. split; [exact E1|]. split; [exact L1|]. rewrite Hblk by exact Hb0. pose proof (steps_ge C WF Hn (length us) HkM) as HT. fold tau.
  assert (Hbt : (b < tau)%nat) by lia. destruct (Hsv tau) as [Ls [Hsi Hmin]]. change (tr_k (the_trellis C rsc)) with (kk C) in Hsi.
  set (ut := seen 1 us 0 tau). assert (Hut : length ut = tau) by (unfold ut; rewrite seen_length; lia).
  assert (Hui : inputs (kk C) ut) by (apply seen_inputs; assumption).
  assert (Hue : encoded (the_trellis C rsc) ut = seen (outs C) (encoded (the_trellis C rsc) us) 0 tau).
  { destruct Htau as [Ht|Ht]; [|apply seen_encoded; assumption].
    unfold ut. rewrite !seen_firstn by (rewrite ?encoded_length; change (tr_n (the_trellis C rsc)) with (outs C); nia). rewrite Nat.mul_1_r. apply encoded_firstn. }
  f_equal. destruct (Z.eq_dec (nth b (sv tau) 0) (nth b us 0)) as [Eq|Ne]; [exact Eq|exfalso].
  specialize (Hmin ut ltac:(lia) Hui). specialize (Hd (xorl ut (sv tau))). rewrite xorl_length in Hd by lia. specialize (Hd Hut).
  rewrite encoded_xor in Hd by (try assumption; lia). rewrite <- mismatches_weight in Hd by (rewrite !encoded_length; lia).
  rewrite xorl_nth in Hd by lia.
  assert (HX : 2 * mismatches (seen (outs C) rc 0 tau) (encoded (the_trellis C rsc) ut) < mismatches (encoded (the_trellis C rsc) ut) (encoded (the_trellis C rsc) (sv tau))).
  { rewrite Hue. eapply Z.le_lt_trans; [|rewrite <- Hue; apply Hd].
    - apply Z.mul_le_mono_nonneg_l; [lia|]. unfold seen. rewrite !firstn_app. rewrite encoded_length, HrL. change (tr_n (the_trellis C rsc)) with (outs C).
      rewrite mismatches_app_same; [lia|]. rewrite !firstn_length, encoded_length, HrL. reflexivity.
    - unfold inputs. apply Forall_nth. intros i d Hi. rewrite xorl_length in Hi by lia. rewrite (nth_indep _ d 0) by (rewrite xorl_length; lia). rewrite xorl_nth by lia.
      unfold inputs in Hui, Hsi. rewrite Forall_forall in Hui, Hsi. apply lxor_range; [apply Hui|apply Hsi]; apply nth_In; lia.
    - unfold ut. rewrite seen1_nth by lia. intros Ex. apply Ne. symmetry. apply Z.lxor_eq. exact Ex. }
  pose proof (mismatches_triangle (encoded (the_trellis C rsc) ut) (seen (outs C) rc 0 tau) (encoded (the_trellis C rsc) (sv tau))) as HT3.
  assert (length (seen (outs C) rc 0 tau) = (tau * outs C)%nat) as HLs by apply seen_length.
  rewrite !encoded_length, HLs in HT3. change (tr_n (the_trellis C rsc)) with (outs C) in HT3. rewrite Hut, Ls in HT3. specialize (HT3 eq_refl eq_refl).
  rewrite (mismatches_sym (encoded _ ut) (seen _ _ _ _)) in HT3. lia.
Qed.

Lemma C65_corrects_errors_proof :
forall (garbage : regs) (C : code) (rsc : bool) (tr : Trellis) (us received : list Z) (tb_depth : option nat) gp (gs : nat -> scratch Z) (d : Z),
    trellis_of garbage C rsc = Ok tr -> decodable C (length us) gs -> usable C (length us) tb_depth -> inputs (kk C) us -> walk (entry (tr_next tr)) 0 us = 0 ->
    window_distance C tr (length us) tb_depth d ->
    bits received -> length received = (length us * outs C)%nat -> 2 * mismatches received (encoded tr us) < d ->
    exists caller, viterbi_decode Z.add Z.leb 0 hard received tr tb_depth gp gs = Ok (map Some (bitstream (kk C) us), caller).
Proof.
  intros garbage C rsc tr us rc o gp gs d E HD HU Hu Hw Hwd Hrb HrL Hd. pose proof HD as (WF & HI & Hn & HkM & Hm & Hb & Hg).
  destruct (C29_hard_window_proof garbage C rsc tr rc (length us) o gp gs E HD HU Hrb HrL) as (out & caller & sv & E1 & L1 & Hob & Hsv & Hblk).
  exists caller. rewrite E1. do 3 f_equal. apply (out_from_blocks (kk C) (length us)); [apply k_pos; exact WF|exact L1|reflexivity|].
  intros b Hlt. destruct (C65_symbol_corrected_proof garbage C rsc tr us rc o gp gs b E HD HU Hu Hrb HrL Hlt (or_intror Hw)) as (out' & caller' & E2 & _ & Hs).
  { intros e He1 He2 He3. pose proof (mismatches_firstn (Nat.min (steps C (length us)) (b + depth C (length us) o - 1) * outs C) rc (encoded tr us)).
    specialize (Hwd b e Hlt He1 He2 He3). lia. }
  rewrite E1 in E2. injection E2 as E2 _. assert (out = out') as -> by (clear - E2; revert out' E2; induction out as [|x l IH]; intros [|y l'] H; try discriminate; [reflexivity|]; cbn [map] in H; injection H as -> H; f_equal; apply IH; exact H).
  exact Hs.
Qed.

Lemma C65_end_to_end_proof :
forall (garbage : regs) (C : code) (tr : Trellis) (msg coded received : list Z) (B : nat) (tb_depth : option nat) gp (gs : nat -> scratch Z) (d : Z),
    trellis_of garbage C false = Ok tr -> fback C = None -> decodable C B gs -> usable C B tb_depth -> rate_ok (kk C) (outs C) = true ->
    Z.of_nat (length msg + 2 * MM C) * Z.of_nat (outs C) < 2 ^ 49 ->
    bits msg -> (length msg + MM C + MM C mod kk C = B * kk C)%nat -> (max_mem (memory C) * kk C <= MM C + MM C mod kk C)%nat ->
    conv_encode msg tr Term None = Ok coded ->
    window_distance C tr B tb_depth d -> bits received -> length received = length coded -> 2 * mismatches received coded < d ->
    exists caller, viterbi_decode Z.add Z.leb 0 hard received tr tb_depth gp gs = Ok (map Some (msg ++ repeat 0 (MM C + MM C mod kk C)), caller).
Proof.
  intros garbage C tr msg coded rc B o gp gs d E Hf HD HU Hr Hbig2 Hbm HL Hmax Henc Hwd Hrb HrL Hd. pose proof HD as (WF & HI & Hn & HkM & Hm & Hb & Hg). pose proof E as E0.
  rewrite trellis_of_spec in E by exact WF. injection E as <-.
  destruct (encode_is_encoded C msg coded B WF Hf Hn Hr Hbig2 Hbm HL Hmax Henc) as (Ec & Ls & Hin & Hw & Hbs). set (us := symbols _ _) in *. rewrite <- Hbs. clearbody us. subst coded.
  apply (C65_corrects_errors_proof garbage C false (the_trellis C false) _ rc o gp gs d E0); rewrite ?Ls; try assumption.
  rewrite HrL, encoded_length, Ls. reflexivity.
Qed.

Lemma last_zero (P : nat -> bool) : P 0%nat = true -> forall b, exists a, (a <= b)%nat /\ P a = true /\ forall i, (a < i <= b)%nat -> P i = false.
Proof.
  intros H0. induction b as [|b (a & Ha & Pa & Hi)]; [exists 0%nat; split; [lia|]; split; [exact H0|intros; lia]|].
  destruct (P (S b)) eqn:E; [exists (S b); split; [lia|]; split; [exact E|intros; lia]|]. exists a. split; [lia|]. split; [exact Pa|]. intros i H. destruct (Nat.eq_dec i (S b)) as [->|]; [exact E|apply Hi; lia].
Qed.
Lemma first_zero (P : nat -> bool) b : forall m, exists c, (b < c <= b + S m)%nat /\ (c = b + S m \/ P c = true)%nat /\ forall i, (b < i < c)%nat -> P i = false.
Proof.
  induction m as [|m (c & Hc & Pc & Hi)]; [exists (b + 1)%nat; split; [lia|]; split; [lia|intros; lia]|].
  destruct (P c) eqn:E; [exists c; split; [lia|]; split; [right; exact E|exact Hi]|]. destruct Pc as [Pc|Pc]; [|discriminate].
  exists (S c). split; [lia|]. split; [left; lia|]. intros i H. destruct (Nat.eq_dec i c) as [->|]; [exact E|apply Hi; lia].
Qed.
Lemma mismatches_app a : forall b a' b', length a = length b -> mismatches (a ++ a') (b ++ b') = mismatches a b + mismatches a' b'.
Proof. induction a as [|x a IH]; intros [|y b] a' b' H; try discriminate; [reflexivity|]. cbn [app]. rewrite !mismatches_cons, IH by (injection H; auto). lia. Qed.
Lemma split3 {A} (l : list A) p q : (p <= q)%nat -> l = firstn p l ++ slice l p q ++ skipn q l.
Proof.
  intros H. unfold slice. rewrite <- (firstn_skipn p l) at 1. f_equal. rewrite <- (firstn_skipn (q - p) (skipn p l)) at 1. f_equal. clear - H. revert p q H. induction l as [|x l IH]; intros p q H; [destruct p, q; cbn [skipn]; rewrite ?skipn_nil; reflexivity|].
  destruct p as [|p]; [cbn [skipn]; rewrite Nat.sub_0_r; reflexivity|]. destruct q as [|q]; [lia|]. cbn [skipn Nat.sub]. apply IH. lia.
Qed.
Lemma mismatches_split3 x y p q : length x = length y -> (p <= q)%nat -> mismatches x y = mismatches (firstn p x) (firstn p y) + mismatches (slice x p q) (slice y p q) + mismatches (skipn q x) (skipn q y).
Proof.
  intros H Hpq. rewrite (split3 x p q Hpq) at 1. rewrite (split3 y p q Hpq) at 1. rewrite !mismatches_app; [lia| |rewrite !firstn_length, H; reflexivity].
  unfold slice. rewrite !firstn_length, !skipn_length, H. reflexivity.
Qed.
Lemma xorl_r0 a : forall m, length a = m -> xorl a (repeat 0 m) = a.
Proof. induction a as [|x a IH]; intros [|m] H; try discriminate; [reflexivity|]. cbn [repeat]. rewrite xorl_cons, Z.lxor_0_r, IH by (injection H; auto). reflexivity. Qed.
Lemma xorl_back a : forall b, length a = length b -> xorl a (xorl b a) = b.
Proof. induction a as [|x a IH]; intros [|y b] H; try discriminate; [reflexivity|]. rewrite !xorl_cons, IH by (injection H; auto). f_equal. rewrite (Z.lxor_comm y x), <- Z.lxor_assoc, Z.lxor_nilpotent. apply Z.lxor_0_l. Qed.
Lemma mismatches_slice_pad x y z p q : length x = length y -> mismatches (slice (x ++ z) p q) (slice (y ++ z) p q) = mismatches (slice x p q) (slice y p q).
Proof.
  intros H. unfold slice. rewrite !skipn_app, !firstn_app, !skipn_length, H. rewrite mismatches_app_same; [reflexivity|]. rewrite !firstn_length, !skipn_length, H. reflexivity.
Qed.
Lemma slice_firstn {A} (l : list A) p q m : (q <= m)%nat -> slice (firstn m l) p q = slice l p q.
Proof.
  intros H. unfold slice. revert p q m H. induction l as [|x l IH]; intros p q m H; [rewrite firstn_nil; reflexivity|]. destruct m as [|m]; [assert (q = 0)%nat as -> by lia; cbn [Nat.sub]; reflexivity|].
  destruct p as [|p]; [cbn [firstn skipn]; rewrite Nat.sub_0_r; destruct q as [|q]; [reflexivity|]; cbn [firstn]; f_equal; rewrite firstn_firstn; f_equal; lia|]. destruct q as [|q]; [reflexivity|]. cbn [firstn skipn Nat.sub]. apply IH. lia.
Qed.
Lemma firstn_S_walk next (e : list Z) s a i : (a + i <= length e)%nat -> walk next s (firstn (a + i) e) = walk next (walk next s (firstn a e)) (firstn i (skipn a e)).
Proof. intros H. rewrite <- walk_app. f_equal. rewrite <- (firstn_skipn a e) at 1. rewrite firstn_app, firstn_firstn, firstn_length. f_equal; [f_equal; lia|]. f_equal. lia. Qed.
Lemma inputs_slice k us p q : inputs k us -> inputs k (slice us p q).
Proof. intros H. unfold slice, inputs in *. apply Forall_forall. intros x Hx. rewrite Forall_forall in H. apply H. rewrite <- (firstn_skipn p us). apply in_or_app. right. rewrite <- (firstn_skipn (q - p) (skipn p us)). apply in_or_app. left. exact Hx. Qed.
Lemma inputs_xor k us us' : length us = length us' -> inputs k us -> inputs k us' -> inputs k (xorl us us').
Proof.
  intros HL H H'. revert us' HL H'. induction H as [|u us Hu H IH]; intros [|v us'] HL H'; try discriminate; [constructor|]. inversion H'; subst. rewrite xorl_cons. constructor; [apply lxor_range; assumption|]. apply IH; [injection HL; auto|assumption].
Qed.
(* the survivor is not worse than the survivor with one excursion taken back *)
Lemma excursion_cost C rsc (sv ut R : list Z) (a c tau : nat) : well_formed C -> (1 <= outs C)%nat -> inputs (kk C) sv -> inputs (kk C) ut -> length sv = tau -> length ut = tau -> length R = (tau * outs C)%nat -> (a <= c <= tau)%nat ->
  minimises Z.le (the_trellis C rsc) (mismatches R) sv ->
  (forall us', length us' = tau -> inputs (kk C) us' -> walk (entry (tr_next (the_trellis C rsc))) 0 us' = 0 -> walk (entry (tr_next (the_trellis C rsc))) 0 sv <> 0 ->
     mismatches R (encoded (the_trellis C rsc) sv) < mismatches R (encoded (the_trellis C rsc) us')) ->
  let e := xorl ut sv in let next := entry (tr_next (the_trellis C rsc)) in
  walk next 0 (firstn a e) = 0 -> ((c < tau)%nat -> walk next 0 (firstn c e) = 0) ->
  weight (encoded (the_trellis C rsc) (slice e a c)) <= 2 * mismatches (slice R (a * outs C) (c * outs C)) (slice (encoded (the_trellis C rsc) ut) (a * outs C) (c * outs C)) /\ ((c < tau)%nat -> walk next 0 (slice e a c) = 0) /\
  (c = tau -> walk next 0 ut = 0 -> walk next 0 (slice e a c) <> 0 ->
     weight (encoded (the_trellis C rsc) (slice e a c)) < 2 * mismatches (slice R (a * outs C) (c * outs C)) (slice (encoded (the_trellis C rsc) ut) (a * outs C) (c * outs C))).
Proof.
  intros WF Hn Hs Hu Ls Lu LR Hac [_ Hmin] Hties e next Wa Wc. set (tr := the_trellis C rsc) in *. set (n := outs C) in *.
  assert (Le : length e = tau) by (unfold e; rewrite xorl_length; lia). assert (He : inputs (kk C) e) by (apply inputs_xor; congruence).
  set (E2 := slice e a c). assert (L2 : length E2 = (c - a)%nat) by (apply slice_length; lia).
  assert (W2 : ((c < tau)%nat -> walk next 0 E2 = 0)). { intros Hc. specialize (Wc Hc). replace c with (a + (c - a))%nat in Wc by lia. rewrite firstn_S_walk in Wc by lia. rewrite Wa in Wc. exact Wc. }
  set (z := repeat 0 a ++ E2 ++ repeat 0 (tau - c)). assert (Lz : length z = tau) by (unfold z; rewrite !app_length, !repeat_length; lia).
  assert (Hr : forall m, inputs (kk C) (repeat 0 m)) by (intros m; apply Forall_forall; intros x Hx; apply repeat_spec in Hx; subst x; split; [lia|apply Z.pow_pos_nonneg; lia]).
  assert (Hz : inputs (kk C) z). { unfold z. apply Forall_app. split; [apply Hr|]. apply Forall_app. split; [apply inputs_slice; exact He|apply Hr]. }
  assert (Ez : encoded tr z = repeat 0 (a * n) ++ encoded tr E2 ++ repeat 0 ((tau - c) * n)).
  { unfold z, encoded. rewrite emit_app. destruct (encoded_zeros C rsc Hn a) as [Z1 Z2]. fold tr in Z1, Z2. rewrite Z1, Z2, bitstream_app. change (tr_n tr) with n. rewrite bitstream_zeros. f_equal.
    destruct (Nat.eq_dec c tau) as [->|N]; [rewrite Nat.sub_diag; cbn [repeat Nat.mul]; rewrite !app_nil_r; reflexivity|].
    fold (encoded tr (E2 ++ repeat 0 (tau - c))). change (bitstream n (emit (entry (tr_next tr)) (entry (tr_out tr)) 0 (E2 ++ repeat 0 (tau - c)))) with (encoded tr (E2 ++ repeat 0 (tau - c))).
    rewrite (encoded_app_zeros C rsc Hn) by (apply W2; lia). reflexivity. }
  assert (EL : forall us, length (encoded tr us) = (length us * n)%nat) by (intros us; apply encoded_length).
  set (S := encoded tr sv). set (U := encoded tr ut). assert (LS : length S = (tau * n)%nat) by (unfold S; rewrite EL, Ls; reflexivity). assert (LU : length U = (tau * n)%nat) by (unfold U; rewrite EL, Lu; reflexivity).
  assert (EE : encoded tr e = xorl U S) by (unfold e; apply encoded_xor; try assumption; congruence).
  assert (E2e : encoded tr E2 = xorl (slice U (a * n) (c * n)) (slice S (a * n) (c * n))).
  { rewrite <- slice_xorl by congruence. rewrite <- EE. unfold E2. rewrite (split3 e a c) at 2 by lia. unfold encoded at 2. rewrite !emit_app. change (entry (tr_next tr)) with next. rewrite Wa, !bitstream_app. change (tr_n tr) with n.
    fold E2. rewrite app_assoc. unfold slice at 1. assert (Lf : length (bitstream n (emit next (entry (tr_out tr)) 0 (firstn a e))) = (a * n)%nat) by (rewrite bitstream_length, emit_length, firstn_length; f_equal; lia).
    rewrite <- app_assoc, skipn_app, skipn_all2 by lia. rewrite Lf, Nat.sub_diag. cbn [skipn app]. assert (L3 : length (bitstream n (emit next (entry (tr_out tr)) 0 E2)) = (c * n - a * n)%nat) by (rewrite bitstream_length, emit_length, L2; nia).
    rewrite firstn_app, firstn_all2 by lia. rewrite L3, Nat.sub_diag. cbn [firstn]. rewrite app_nil_r. reflexivity. }
  enough (K : forall d, mismatches R (encoded tr sv) + d <= mismatches R (encoded tr (xorl sv z)) -> weight (encoded tr E2) + d <= 2 * mismatches (slice R (a * n) (c * n)) (slice (encoded tr ut) (a * n) (c * n))).
  { split; [|split; [exact W2|]].
    - specialize (K 0). rewrite !Z.add_0_r in K. apply K. apply Hmin; [rewrite xorl_length; congruence|apply inputs_xor; congruence || assumption].
    - intros -> Wu WE. specialize (K 1). fold E2 in WE. assert (Wz : walk next 0 z = walk next 0 E2).
      { unfold z. rewrite Nat.sub_diag. cbn [repeat]. rewrite app_nil_r, walk_app. destruct (encoded_zeros C rsc Hn a) as [Z1 _]. fold tr in Z1. change (entry (tr_next tr)) with next in Z1. rewrite Z1. reflexivity. }
      assert (HX : forall us us', inputs (kk C) us -> inputs (kk C) us' -> length us = length us' -> walk next 0 (xorl us us') = Z.lxor (walk next 0 us) (walk next 0 us')).
      { intros us us' H1 H2 H3. unfold next, tr. rewrite !walk_the; try assumption; try apply zero_range; [|apply inputs_xor; assumption]. rewrite <- (Z.lxor_0_l 0) at 1. apply walk_xor. exact H3. }
      assert (Wee : walk next 0 e = walk next 0 E2). { unfold E2, slice. rewrite <- (firstn_skipn a e) at 1. rewrite walk_app, Wa. f_equal. symmetry. apply firstn_all2. rewrite skipn_length. lia. }
      assert (Wsv : walk next 0 sv = walk next 0 E2). { rewrite <- Wee. unfold e. rewrite HX by congruence. rewrite Wu. symmetry. apply Z.lxor_0_l. }
      assert (Wx : walk next 0 (xorl sv z) = 0) by (rewrite HX by congruence; rewrite Wz, Wsv; apply Z.lxor_nilpotent).
      specialize (Hties (xorl sv z) ltac:(rewrite xorl_length; congruence) (inputs_xor (kk C) sv z (eq_trans Ls (eq_sym Lz)) Hs Hz) Wx). change (entry (tr_next tr)) with next in Hties. rewrite Wsv in Hties. specialize (Hties WE). unfold U. lia. }
  clear Hmin Hties. intros d Hmin.
  assert (ES : encoded tr (xorl sv z) = xorl S (encoded tr z)) by (apply encoded_xor; try assumption; congruence). fold S in Hmin. rewrite ES in Hmin.
  assert (Hn1 : (a * n <= c * n)%nat) by nia. assert (Hn2 : (c * n <= tau * n)%nat) by nia.
  assert (LEz : length (encoded tr z) = (tau * n)%nat) by (rewrite EL, Lz; reflexivity).
  assert (LX : length (xorl S (encoded tr z)) = (tau * n)%nat) by (rewrite xorl_length; congruence).
  assert (LE2 : length (encoded tr E2) = (c * n - a * n)%nat) by (rewrite EL, L2; nia).
  assert (LS2 : length (slice S (a * n) (c * n)) = (c * n - a * n)%nat) by (apply slice_length; lia). assert (LU2 : length (slice U (a * n) (c * n)) = (c * n - a * n)%nat) by (apply slice_length; lia). assert (LR2 : length (slice R (a * n) (c * n)) = (c * n - a * n)%nat) by (apply slice_length; unfold n in *; lia).
  assert (EX : xorl S (encoded tr z) = firstn (a * n) S ++ slice U (a * n) (c * n) ++ skipn (c * n) S).
  { rewrite Ez. rewrite (split3 S (a * n) (c * n)) at 1 by exact Hn1. rewrite !xorl_app; [|congruence|rewrite firstn_length, repeat_length; lia].
    rewrite xorl_r0 by (rewrite firstn_length; lia). f_equal. f_equal; [rewrite E2e; apply xorl_back; congruence|]. apply xorl_r0. rewrite skipn_length, LS. nia. }
  rewrite EX in Hmin. rewrite (mismatches_split3 R S (a * n) (c * n)) in Hmin by (unfold n in *; congruence || lia).
  rewrite (split3 R (a * n) (c * n) Hn1) in Hmin at 4. rewrite !mismatches_app in Hmin; [|congruence|rewrite !firstn_length; unfold n in *; congruence].
  rewrite E2e, <- mismatches_weight by congruence.
  pose proof (mismatches_triangle (slice U (a * n) (c * n)) (slice R (a * n) (c * n)) (slice S (a * n) (c * n)) ltac:(congruence) ltac:(congruence)) as HT.
  rewrite (mismatches_sym (slice U _ _) (slice R _ _)) in HT. fold U. lia.
Qed.

Lemma C65_sparse_errors_proof :
forall (garbage : regs) (C : code) (rsc : bool) (tr : Trellis) (us received : list Z) (tb_depth : option nat) gp (gs : nat -> scratch Z) (b : nat),
    trellis_of garbage C rsc = Ok tr -> decodable C (length us) gs -> usable C (length us) tb_depth -> inputs (kk C) us ->
    bits received -> length received = (length us * outs C)%nat -> (b < length us)%nat ->
    let tau := Nat.min (steps C (length us)) (b + depth C (length us) tb_depth - 1) in let next := entry (tr_next tr) in
    (tau <= length us)%nat \/ walk next 0 us = 0 ->
    (forall (a c : nat) e, (a <= b < c)%nat -> (c <= tau)%nat -> length e = (c - a)%nat -> inputs (kk C) e -> nth (b - a) e 0 <> 0 ->
       (forall i, (0 < i < c - a)%nat -> walk next 0 (firstn i e) <> 0) -> ((c < tau)%nat -> walk next 0 e = 0) ->
       let errors := mismatches (slice received (a * outs C) (c * outs C)) (slice (encoded tr us) (a * outs C) (c * outs C)) in
       2 * errors < weight (encoded tr e) \/
       (c = tau /\ (length us <= tau)%nat /\ walk next 0 us = 0 /\ walk next 0 e <> 0 /\ 2 * errors <= weight (encoded tr e))) ->
    exists out caller, viterbi_decode Z.add Z.leb 0 hard received tr tb_depth gp gs = Ok (map Some out, caller) /\ length out = (length us * kk C)%nat /\
      slice out (b * kk C) ((b + 1) * kk C) = bits_msb (kk C) (nth b us 0).
Proof.
  intros garbage C rsc tr us rc o gp gs b E HD HU Hu Hrb HrL Hb0 tau next Htau Hd. pose proof HD as (WF & HI & Hn & HkM & Hm & Hb & Hg). pose proof HU as (U1 & U2 & U3). pose proof E as E0. rewrite trellis_of_spec in E by exact WF. injection E as <-.
  destruct (C29_hard_ties_proof garbage C rsc (the_trellis C rsc) rc (length us) o gp gs E0 HD HU Hrb HrL) as (out & caller & sv & E1 & L1 & Hob & Hsv & Hblk & Hties).
  exists out, caller. split; [exact E1|]. split; [exact L1|]. rewrite Hblk by exact Hb0. pose proof (steps_ge C WF Hn (length us) HkM) as HT. fold tau.
  assert (Hbt : (b < tau)%nat) by lia. destruct (Hsv tau) as [Ls Hmin]. pose proof Hmin as [Hsi _]. change (tr_k (the_trellis C rsc)) with (kk C) in Hsi.
  set (ut := seen 1 us 0 tau). assert (Hut : length ut = tau) by (unfold ut; rewrite seen_length; lia).
  assert (Hui : inputs (kk C) ut) by (apply seen_inputs; assumption).
  assert (Hue : encoded (the_trellis C rsc) ut = seen (outs C) (encoded (the_trellis C rsc) us) 0 tau).
  { destruct Htau as [Ht|Ht]; [|apply seen_encoded; assumption].
    unfold ut. rewrite !seen_firstn by (rewrite ?encoded_length; change (tr_n (the_trellis C rsc)) with (outs C); nia). rewrite Nat.mul_1_r. apply encoded_firstn. }
  f_equal. destruct (Z.eq_dec (nth b (sv tau) 0) (nth b us 0)) as [Eq|Ne]; [exact Eq|exfalso].
  set (e := xorl ut (sv tau)). assert (Le : length e = tau) by (unfold e; rewrite xorl_length; lia). assert (He : inputs (kk C) e) by (apply inputs_xor; try assumption; lia).
  assert (Heb : nth b e 0 <> 0). { unfold e. rewrite xorl_nth by lia. unfold ut. rewrite seen1_nth by lia. intros Ex. apply Ne. symmetry. apply Z.lxor_eq. exact Ex. }
  set (P := fun i => walk next 0 (firstn i e) =? 0).
  destruct (last_zero P eq_refl b) as (a & Ha & Pa & Hai). destruct (first_zero P b (tau - b - 1)) as (c & Hc & Pc & Hci). replace (b + S (tau - b - 1))%nat with tau in * by lia.
  assert (Wa : walk next 0 (firstn a e) = 0) by (apply Z.eqb_eq; exact Pa).
  assert (Wc : (c < tau)%nat -> walk next 0 (firstn c e) = 0) by (intros L; destruct Pc as [Pc|Pc]; [lia|apply Z.eqb_eq; exact Pc]).
  destruct (excursion_cost C rsc (sv tau) ut (seen (outs C) rc 0 tau) a c tau WF Hn Hsi Hui Ls Hut (seen_length _ _ _ _) ltac:(lia) Hmin (Hties tau) Wa Wc) as (K1 & K2 & K3). fold e next in K1, K2, K3.
  specialize (Hd a c (slice e a c) ltac:(lia) ltac:(lia)). rewrite slice_length in Hd by lia. specialize (Hd eq_refl (inputs_slice _ _ _ _ He)).
  rewrite slice_nth in Hd by lia. replace (a + (b - a))%nat with b in Hd by lia. specialize (Hd Heb).
  assert (Q : forall i, (0 < i < c - a)%nat -> walk next 0 (firstn i (slice e a c)) <> 0).
  { intros i Hi. assert (P (a + i)%nat = false) as N by (destruct (Nat.le_gt_cases (a + i) b); [apply Hai; lia|apply Hci; lia]). unfold P in N. apply Z.eqb_neq in N. rewrite firstn_S_walk, Wa in N by lia.
    unfold slice. rewrite firstn_firstn. replace (Nat.min i (c - a)) with i by lia. exact N. }
  specialize (Hd Q K2). rewrite Hue in K1, K3. unfold seen in K1, K3. rewrite !slice_firstn in K1, K3 by nia. rewrite mismatches_slice_pad in K1, K3 by (rewrite encoded_length, HrL; reflexivity).
  cbv zeta in Hd. destruct Hd as [Hd|(Ect & Lut & Wu & Nz & Hd)]; [lia|]. specialize (K3 Ect). specialize (K3 ltac:(unfold ut, seen; rewrite !Nat.mul_1_r, firstn_app, firstn_all2 by lia; rewrite walk_app; unfold next; fold next; rewrite Wu, firstn_repeat_le; exact (proj1 (encoded_zeros C rsc Hn _))) Nz). lia.
Qed.

Lemma weight_app x y : weight (x ++ y) = weight x + weight y.
Proof. unfold weight. rewrite filter_app, app_length. lia. Qed.
Lemma tables_5_7 : tr_next (the_trellis code_5_7 false) = [[0; 2]; [0; 2]; [1; 3]; [1; 3]] /\ tr_out (the_trellis code_5_7 false) = [[0; 3]; [3; 0]; [1; 2]; [2; 1]].
Proof. split; vm_compute; reflexivity. Qed.
Lemma excursion_5_7 : forall e, inputs 1 e -> (1 <= length e)%nat -> nth 0 e 0 <> 0 -> let next := entry (tr_next (the_trellis code_5_7 false)) in
  (forall i, (0 < i < length e)%nat -> walk next 0 (firstn i e) <> 0) ->
  let w := 2 * weight (encoded (the_trellis code_5_7 false) e) in let l := Z.of_nat (length e) in let s := walk next 0 e in
  (s = 2 /\ l + 3 <= w) \/ ((s = 1 \/ s = 3) /\ l + 4 <= w /\ 2 <= l) \/ (s = 0 /\ l + 7 <= w /\ 3 <= l).
Proof.
  destruct tables_5_7 as [EN EO]. intros e. induction e as [|u e IH] using rev_ind; intros Hi HL H0 next Hz w l s; [cbn in HL; lia|].
  assert (Hi' : inputs 1 e /\ (u = 0 \/ u = 1)). { apply Forall_app in Hi. destruct Hi as [H1 H2]. split; [exact H1|]. inversion H2; subst. change (2 ^ Z.of_nat 1) with 2 in *. lia. } destruct Hi' as [Hi' Hu].
  assert (Es : s = next (walk next 0 e) u) by (unfold s; rewrite walk_app; reflexivity).
  assert (Ew : w = 2 * weight (encoded (the_trellis code_5_7 false) e) + 2 * weight (bits_msb 2 (entry (tr_out (the_trellis code_5_7 false)) (walk next 0 e) u))).
  { unfold w, encoded. rewrite emit_app, bitstream_app, weight_app. cbn [emit]. unfold bitstream at 2. cbn [map concat]. rewrite app_nil_r. change (tr_n (the_trellis code_5_7 false)) with 2%nat. fold next. lia. }
  assert (El : l = Z.of_nat (length e) + 1) by (unfold l; rewrite app_length; cbn [length]; lia).
  clearbody w l s. destruct e as [|v e'].
  - cbn [app nth] in H0. destruct Hu as [->| ->]; [lia|]. left. cbn [walk] in Es, Ew. unfold next in Es. rewrite EN in Es. rewrite EO in Ew. vm_compute in Es, Ew. cbn [length] in El. split; [exact Es|]. lia.
  - assert (Ne : walk next 0 (v :: e') <> 0). { specialize (Hz (length (v :: e'))). rewrite firstn_app, Nat.sub_diag, firstn_all, app_nil_r in Hz. apply Hz. rewrite app_length. cbn [length]. lia. }
    specialize (IH Hi' ltac:(cbn [length]; lia) ltac:(exact H0)). fold next in IH. cbv zeta in IH.
    specialize (IH ltac:(intros i Hi2; specialize (Hz i); rewrite firstn_app in Hz; replace (i - length (v :: e'))%nat with 0%nat in Hz by lia; cbn [firstn] in Hz; rewrite app_nil_r in Hz; apply Hz; rewrite app_length; lia)).
    set (w' := weight (encoded _ (v :: e'))) in *. set (s' := walk next 0 (v :: e')) in *. set (l' := Z.of_nat (length (v :: e'))) in *. assert (Hl' : 1 <= l') by (unfold l'; cbn [length]; lia). clearbody w' s' l'. rewrite EO in Ew. unfold next in Es. rewrite EN in Es. clear IHe' EN EO Hz H0 || clear EN EO Hz H0.
    destruct IH as [(-> & IH)|[([->| ->] & IH & IH2)|(-> & _)]]; [| | |lia]; destruct Hu as [->| ->]; vm_compute in Es; match type of Ew with context [weight ?x] => let y := eval vm_compute in (weight x) in change (weight x) with y in Ew end; subst s; lia.
Qed.
Lemma slice_split {A} (l : list A) p r q : (p <= r <= q)%nat -> slice l p q = slice l p r ++ slice l r q.
Proof.
  intros H. unfold slice. replace (q - p)%nat with ((r - p) + (q - r))%nat by lia. generalize (q - r)%nat as m. intros m. assert (E : skipn r l = skipn (r - p) (skipn p l)).
  { clear - H. revert p r H. induction l as [|x l IH]; intros p r H; [rewrite !skipn_nil; reflexivity|]. destruct p as [|p]; [cbn [skipn]; rewrite Nat.sub_0_r; reflexivity|]. destruct r as [|r]; [lia|]. cbn [skipn Nat.sub]. apply IH. lia. }
  rewrite E. generalize (skipn p l) as l'. generalize (r - p)%nat as n. intros n l'. revert l'. induction n as [|n IH]; intros [|x l']; cbn [Nat.add firstn skipn app]; rewrite ?firstn_nil; try reflexivity. f_equal. apply IH.
Qed.
Lemma windows_count x y : length x = length y -> (forall i, mismatches (slice x (2 * i) (2 * i + 26)) (slice y (2 * i) (2 * i + 26)) <= 2) ->
  forall m a l, (l <= 13 * m)%nat -> mismatches (slice x (2 * a) (2 * (a + l))) (slice y (2 * a) (2 * (a + l))) <= 2 * Z.of_nat m.
Proof.
  intros HL H. assert (SL : forall p q, length (slice x p q) = length (slice y p q)) by (intros p q; unfold slice; rewrite !firstn_length, !skipn_length, HL; reflexivity).
  induction m as [|m IH]; intros a l Hl.
  - assert (l = 0%nat) as -> by lia. rewrite Nat.add_0_r. unfold slice. rewrite Nat.sub_diag. cbn. lia.
  - destruct (Nat.le_gt_cases l 13) as [L|L].
    + specialize (H a). rewrite (slice_split x _ (2 * (a + l))), (slice_split y _ (2 * (a + l))) in H by lia. rewrite mismatches_app in H by apply SL.
      pose proof (mismatches_nonneg (slice x (2 * (a + l)) (2 * a + 26)) (slice y (2 * (a + l)) (2 * a + 26))). lia.
    + rewrite (slice_split x _ (2 * a + 26)), (slice_split y _ (2 * a + 26)) by lia. rewrite mismatches_app by apply SL. specialize (H a). specialize (IH (a + 13)%nat (l - 13)%nat ltac:(lia)).
      replace (2 * (a + 13))%nat with (2 * a + 26)%nat in IH by lia. replace (a + 13 + (l - 13))%nat with (a + l)%nat in IH by lia. lia.
Qed.
Lemma bitstream1_nth us : inputs 1 us -> bitstream 1 us = us.
Proof. unfold bitstream. induction 1 as [|u us Hu H IH]; [reflexivity|]. cbn [map concat]. rewrite IH. change (2 ^ Z.of_nat 1) with 2 in Hu. assert (u = 0 \/ u = 1) as [-> | ->] by lia; reflexivity. Qed.

Lemma C65_code_5_7_proof :
forall (garbage : regs) (tr : Trellis) (msg coded received : list Z) gp (gs : nat -> scratch Z),
    trellis_of garbage code_5_7 false = Ok tr -> shaped code_5_7 gs -> bits msg -> (5 <= length msg)%nat -> Z.of_nat (length msg) < 2 ^ 47 ->
    conv_encode msg tr Term None = Ok coded -> bits received -> length received = length coded ->
    (forall i, mismatches (slice received (2 * i) (2 * i + 26)) (slice coded (2 * i) (2 * i + 26)) <= 2) ->
    exists out caller, viterbi_decode Z.add Z.leb 0 hard received tr None gp gs = Ok (map Some out, caller) /\ length out = (length msg + 2)%nat /\
      firstn (length msg) out = msg.
Proof.
  intros garbage tr msg coded rc gp gs E Hg Hbm HL5 Hbig Henc Hrb HrL Hwin. pose proof E as E0.
  assert (WF : well_formed code_5_7) by (apply wf_check_ok; reflexivity). rewrite trellis_of_spec in E by exact WF. injection E as <-.
  destruct (encode_is_encoded code_5_7 msg coded (length msg + 2) WF eq_refl ltac:(cbn; lia) ltac:(vm_compute; reflexivity)) as (Ec & Ls & Hin & Hw & Hbs); try assumption.
  { change (MM code_5_7) with 2%nat. change (outs code_5_7) with 2%nat. change (2 ^ 49) with (2 ^ 47 * 4). lia. }
  { change (MM code_5_7) with 2%nat. change (kk code_5_7) with 1%nat. cbn [Nat.modulo Nat.divmod snd Nat.sub]. lia. }
  { vm_compute. lia. }
  set (us := symbols _ _) in *. clearbody us. change (kk code_5_7) with 1%nat in *. change (MM code_5_7) with 2%nat in *. rewrite bitstream1_nth in Hbs by exact Hin. change (2 + 2 mod 1)%nat with 2%nat in Hbs.
  assert (HLc : length rc = (length us * 2)%nat) by (rewrite HrL, Ec, encoded_length; reflexivity). subst coded.
  assert (HD : decodable code_5_7 (length us) gs). { split; [exact WF|]. split; [left; reflexivity|]. split; [cbn; lia|]. split; [vm_compute; lia|]. split; [vm_compute; reflexivity|]. split; [|exact Hg]. change (kk code_5_7) with 1%nat. rewrite Ls. change (2 ^ 49) with (2 ^ 47 * 4). lia. }
  assert (Est : steps code_5_7 (length us) = (length msg + 3)%nat). { unfold steps. change (kk code_5_7) with 1%nat. change (MM code_5_7) with 2%nat. rewrite Ls, Nat.mul_1_r, Nat.div_1_r. lia. }
  assert (Ede : depth code_5_7 (length us) None = Nat.min 10 (length msg + 2)). { unfold depth. change (kk code_5_7) with 1%nat. change (MM code_5_7) with 2%nat. rewrite Ls, Nat.mul_1_r. reflexivity. }
  assert (HU : usable code_5_7 (length us) None). { unfold usable. rewrite Est, Ede. change (kk code_5_7) with 1%nat. change (MM code_5_7) with 2%nat. lia. }
  destruct (C29_hard_window_proof garbage code_5_7 false _ rc (length us) None gp gs E0 HD HU Hrb HLc) as (out & caller & sv & E1 & L1 & _). change (kk code_5_7) with 1%nat in L1. rewrite Nat.mul_1_r, Ls in L1.
  exists out, caller. split; [exact E1|]. split; [exact L1|].
  apply (nth_ext _ _ 0 0); [rewrite !firstn_length; lia|]. intros b Hb. rewrite firstn_length in Hb. rewrite firstn_nth by lia.
  assert (Eu : nth b msg 0 = nth b us 0) by (rewrite Hbs, app_nth1 by lia; reflexivity).
  destruct (C65_sparse_errors_proof garbage code_5_7 false _ us rc None gp gs b E0 HD HU Hin Hrb HLc ltac:(lia) (or_intror Hw)) as (out' & caller' & E2 & _ & Hsl).
  { rewrite Est, Ede. intros a c e Ha Hc Hle Hie Hnz Hinner Hend. set (tau := Nat.min (length msg + 3) (b + Nat.min 10 (length msg + 2) - 1)) in *. assert (Hcase : (c < tau \/ 6 <= c - b \/ (c = tau /\ length us <= tau /\ 4 <= c - b))%nat) by lia.
    assert (H0 : nth 0 e 0 <> 0). { destruct (Nat.eq_dec (b - a) 0) as [Z0|NZ]; [rewrite Z0 in Hnz; exact Hnz|]. intros H0. apply (Hinner 1%nat); [lia|]. destruct e as [|v e]; [cbn in Hle; lia|]. cbn [nth] in H0. subst v. cbn [firstn walk]. destruct tables_5_7 as [-> _]. reflexivity. }
    pose proof (excursion_5_7 e Hie ltac:(lia) H0) as X. cbv zeta in X. rewrite Hle in X. specialize (X Hinner). set (next := entry _) in *. change (outs code_5_7) with 2%nat. rewrite (Nat.mul_comm a 2), (Nat.mul_comm c 2).
    set (W := weight _) in *. pose proof (windows_count rc (encoded (the_trellis code_5_7 false) us) HrL Hwin) as HW.
    specialize (HW ((c - a + 12) / 13)%nat a (c - a)%nat). pose proof (Nat.div_mod (c - a + 12) 13 ltac:(lia)) as DM. pose proof (Nat.mod_upper_bound (c - a + 12) 13 ltac:(lia)) as DM2. set (m := ((c - a + 12) / 13)%nat) in *. specialize (HW ltac:(lia)). replace (a + (c - a))%nat with c in HW by lia.
    set (X1 := mismatches _ _) in *. assert (HW3 : (m = 1 \/ 2 <= m)%nat) by lia. assert (HX : Z.of_nat (c - a) + 3 <= 2 * W) by lia. destruct HW3 as [M1|M2].
    - destruct (Z.eq_dec (walk next 0 e) 0) as [W0|W0]; [left; destruct X as [(X & _)|[([X|X] & _)|(_ & X)]]; lia|]. destruct Hcase as [Hc1|[Hc1|(Ct & Lt & Hc1)]]; [specialize (Hend Hc1); contradiction|left; lia|].
      right. split; [exact Ct|]. split; [exact Lt|]. split; [exact Hw|]. split; [exact W0|]. lia.
    - left. lia. }
  rewrite E1 in E2. injection E2 as E2 _. assert (out = out') as <- by (clear - E2; revert out' E2; induction out as [|x l IH]; intros [|y l'] H; try discriminate; [reflexivity|]; cbn [map] in H; injection H as -> H; f_equal; apply IH; exact H).
  change (kk code_5_7) with 1%nat in Hsl. rewrite !Nat.mul_1_r in Hsl. rewrite Eu. transitivity (nth 0 (slice out b (b + 1)) 0); [rewrite slice_nth by lia; rewrite Nat.add_0_r; reflexivity|]. rewrite Hsl.
  unfold inputs in Hin. rewrite Forall_forall in Hin. specialize (Hin (nth b us 0) ltac:(apply nth_In; lia)). change (2 ^ Z.of_nat 1) with 2 in Hin. assert (nth b us 0 = 0 \/ nth b us 0 = 1) as [-> | ->] by lia; reflexivity.
Qed.

Lemma C65_terminated_distance_refuted_proof :
exists (tr : Trellis) (coded received out caller : list Z) (gs : nat -> scratch Z),
    trellis_of (fun _ _ => 0) code_5_7 false = Ok tr /\ decodable code_5_7 5 gs /\ usable code_5_7 5 None /\ conv_encode [0; 0; 1] tr Term None = Ok coded /\
    (forall msg' coded', bits msg' -> length msg' = 3%nat -> msg' <> [0; 0; 1] -> conv_encode msg' tr Term None = Ok coded' -> 5 <= mismatches coded coded') /\
    bits received /\ length received = length coded /\ mismatches received coded = 2 /\
    viterbi_decode Z.add Z.leb 0 hard received tr None (fun _ _ => 0) gs = Ok (map Some out, caller) /\ firstn 3 out <> [0; 0; 1].
Proof.
  eexists. eexists. exists [1; 1; 0; 0; 1; 1; 0; 1; 1; 1]. exists [1; 0; 1; 0; 0]. eexists. exists (fun _ => {| pmetrics := repeat None 2; index_array := repeat (0, 0) 4 |}).
  split; [vm_compute; reflexivity|]. split; [dec_tac|]. split; [vm_compute; lia|]. split; [vm_compute; reflexivity|]. split.
  { intros m c Hb HL Hne Hc. destruct m as [|x [|y [|z [|? ?]]]]; [discriminate HL|discriminate HL|discriminate HL| |discriminate HL]. clear HL.
    assert (Hx : x = 0 \/ x = 1) by exact (Forall_inv Hb). assert (Hy : y = 0 \/ y = 1) by exact (Forall_inv (Forall_inv_tail Hb)). assert (Hz : z = 0 \/ z = 1) by exact (Forall_inv (Forall_inv_tail (Forall_inv_tail Hb))). clear Hb.
    destruct Hx as [-> | ->], Hy as [-> | ->], Hz as [-> | ->]; try (exfalso; apply Hne; reflexivity); clear Hne; vm_compute in Hc; injection Hc as <-; vm_compute; discriminate. }
  split; [bits_tac|]. split; [reflexivity|]. split; [vm_compute; reflexivity|]. split; [vm_compute; reflexivity|]. vm_compute. discriminate.
Qed.
