(* Proofs of the MIMO properties C45-C49, C73. *)
From Coq Require Import Permutation Sorted.
From Verif Require Import Base UtilModel UtilProofs Cplx ModemModel ModemSpec ModemProofs ModemTop MimoModel MimoSpec MimoProofs KbestProofs MimoMargin BestFirst BestFirstRun.
Open Scope Z_scope.

Lemma kbest_hard : forall argsort garbage y h q r n c K v demode, (1 <= K)%nat -> c <> [] -> (n <= length h)%nat -> length y = length h ->
  kbest argsort garbage y h q r n c K v Hard demode = match kb_run argsort garbage y n q r c K 0 with [] => Err IndexError | k :: _ => Ok (KHard (cx k)) end.
Proof.
  intros argsort garbage y h q r n c K v demode HK Hc Hn Hy. unfold kbest. destruct (Nat.ltb_spec (length h) n) as [?|_]; [lia|]. rewrite Hy, Nat.eqb_refl. cbn [negb]. destruct c as [|s c]; [congruence|]. replace (K =? 0)%nat with false by (symmetry; apply Nat.eqb_neq; lia). cbn [andb]. rewrite kb_run_0. reflexivity.
Qed.
Lemma kbest_soft : forall argsort garbage y h q r n c K v demode, (1 <= K)%nat -> c <> [] -> (n <= length h)%nat -> length y = length h ->
  kbest argsort garbage y h q r n c K v Soft demode = (l <- max_log_approx y h v (map cx (kb_run argsort garbage y n q r c K 0)) demode ;; Ok (KSoft l)).
Proof.
  intros argsort garbage y h q r n c K v demode HK Hc Hn Hy. unfold kbest. destruct (Nat.ltb_spec (length h) n) as [?|_]; [lia|]. rewrite Hy, Nat.eqb_refl. cbn [negb]. destruct c as [|s c]; [congruence|]. replace (K =? 0)%nat with false by (symmetry; apply Nat.eqb_neq; lia). cbn [andb]. rewrite kb_run_0. reflexivity.
Qed.
Lemma kb_run_width : forall argsort garbage y n q r c K, (1 <= K)%nat -> (length (kb_run argsort garbage y n q r c K 0) <= K)%nat.
Proof.
  intros argsort garbage y n q r c K HK. unfold kb_run. rewrite Nat.sub_0_r. destruct n as [|n]; [cbn; lia|]. cbn [seq rev]. rewrite fold_left_app. cbn [fold_left]. unfold kb_step. rewrite map_length, firstn_length. lia.
Qed.
Lemma good_vector : forall yt r c n k, good yt r c n 0 k -> vector_of c n (cx k).
Proof.
  intros yt r c n k H. unfold good in H. split; [apply H|]. apply Forall_forall. intros s Hs. apply (In_nth _ _ C0) in Hs as (j & Hj & <-). destruct H as (HL & _ & HG & _). apply HG. lia.
Qed.
Lemma value_of : forall v d0 d1, (0 < v)%R -> d0 <> None \/ d1 <> None -> ext_div (ext_opp (ext_sub d0 d1)) (2 * v) = max_log_value v d0 d1.
Proof.
  intros v d0 d1 Hv H. destruct d0 as [a|], d1 as [b|]; cbn [ext_sub ext_opp ext_div max_log_value]; [destruct (Req_EM_T (2 * v) 0); [lra|f_equal; lra]| | |destruct H; congruence]; destruct (Rlt_dec (2 * v) 0); lra || reflexivity.
Qed.
Lemma modem_demaps : forall c r md v, modem_init c r = Ok md -> NoDup c -> (2 <= length c)%nat ->
  num_bits md = Nat.log2 (length c) /\
  exists lab : C -> list Z, demaps (fun x => match demodulate md x Hard v with Ok (inl b) => Ok b | Ok (inr _) => Err TypeError | Err e => Err e end) c (Nat.log2 (length c)) lab /\
    forall l, (l < length c)%nat -> lab (nth l (points md) C0) = bits_msb (num_bits md) (Z.of_nat l).
Proof.
  intros c r md v E ND H2. assert (HW := init_wf _ _ _ E). assert (HP := init_perm _ _ _ E). assert (HL : length (points md) = length c) by (apply Permutation_length, HP). assert (ND' : NoDup (points md)) by (apply (Permutation_NoDup (Permutation_sym HP)), ND).
  assert (HB : num_bits md = Nat.log2 (length c)). { destruct HW as (W & _). rewrite <- HL, W, Nat.log2_pow2 by lia. reflexivity. }
  split; [exact HB|]. exists (fun s => match hard_index md s with Ok l => bits_msb (num_bits md) (Z.of_nat l) | Err _ => [] end). split; [split|].
  - intros s Hs. destruct (hard_ok md s HW) as (l & El & _). rewrite El. rewrite <- HB. split; [apply bits_msb_length|]. apply Forall_forall. intros t Ht. pose proof (bits_msb_bits (num_bits md) (Z.of_nat l)) as Q. unfold bits in Q. rewrite Forall_forall in Q. exact (Q t Ht).
  - intros x Hx. unfold demodulate. rewrite (mapM_Ok _ (fun y => match hard_index md y with Ok l => l | Err _ => 0%nat end)).
    2:{ intros y _. destruct (hard_ok md y HW) as (l & El & _). rewrite El. reflexivity. }
    cbn [bind]. rewrite dec_arr. 2:{ intros k Hk. apply in_map_iff in Hk as (y & <- & Hy). destruct (hard_ok md y HW) as (l & El & Hl & _). rewrite El. destruct HW as (W & _). rewrite <- W. exact Hl. }
    cbn [bind]. f_equal. rewrite flat_map_concat_map, !map_map. f_equal. apply map_ext. intros s. destruct (hard_ok md s HW) as (l & El & _). rewrite El. reflexivity.
  - intros l Hl. rewrite hard_exact; [reflexivity|assumption|assumption|lia].
Qed.
Lemma loop_more : forall argsort yt r c demode order sizes L fuel fuel' st o, (fuel <= fuel')%nat -> bf_loop argsort yt r c demode order sizes L fuel st = Some o -> bf_loop argsort yt r c demode order sizes L fuel' st = Some o.
Proof.
  intros argsort yt r c demode order sizes L fuel. induction fuel as [|f IH]; intros fuel' st o Hf E; (destruct fuel' as [|f']; [try lia; exact E|]); cbn [bf_loop] in E |- *; destruct (bf_busy st); try exact E; try discriminate E.
  destruct (bf_round argsort yt r c demode order sizes L st); [|exact E]. apply IH; [lia|exact E].
Qed.
Lemma bfd_more : forall argsort fuel fuel' y h q r n c sizes demode L o, (fuel <= fuel')%nat -> best_first_detector argsort fuel y h q r n c sizes demode L = Some o -> best_first_detector argsort fuel' y h q r n c sizes demode L = Some o.
Proof.
  intros argsort fuel fuel' y h q r n c sizes demode L o Hf E. unfold best_first_detector in *. destruct c as [|s c]; [exact E|]. destruct (negb _); [exact E|]. destruct (expand _ _ _ _ _ _) as [first|]; [|exact E]. cbv zeta in *.
  match type of E with match ?X with _ => _ end = _ => destruct X as [o'|] eqn:Q end; [|discriminate E]. rewrite (loop_more _ _ _ _ _ _ _ _ _ fuel' _ _ Hf Q). exact E.
Qed.
(* sample data *)
Definition hx : list (list C) := [[C1; C1]; [C0; C1]].
Definition id2 : list (list C) := [[C1; C0]; [C0; C1]].
Definition cx2 : list C := [mkC (-1) 0; C1].
Lemma hx_qr : is_qr hx 2 id2 hx.
Proof.
  unfold is_qr, columns. do 5 (split; [repeat constructor|]). split; [|split].
  - intros i j Hi Hj. destruct i as [|[|i]], j as [|[|j]]; cbn in Hi; try lia; unfold hx, id2; cbn [nth seq map Csum fold_right length]; unfold Cadd, Cmul, C1, C0; cbn [re im]; f_equal; ring.
  - intros i j Hi Hj. destruct i as [|[|i]], j as [|[|j]]; try lia; unfold hx, id2; cbn [nth seq map Csum fold_right length Nat.eqb]; unfold Cadd, Cmul, Cconj, C1, C0; cbn [re im]; f_equal; ring.
  - intros i j Hij. destruct i as [|[|i]], j as [|[|j]]; try lia. reflexivity.
Qed.
Lemma hx_injective : injective 2 hx.
Proof.
  intros v Hv H. destruct v as [|a [|b [|? ?]]]; try discriminate. pose proof (H _ (or_introl eq_refl)) as H1. pose proof (H _ (or_intror (or_introl eq_refl))) as H2. unfold apply_row in H1, H2. cbn [length seq map nth Csum fold_right] in H1, H2.
  unfold Cadd, Cmul, C1, C0 in H1, H2. cbn [re im] in H1, H2. injection H1 as A1 A2. injection H2 as B1 B2. unfold repeat. f_equal; [|f_equal].
  - destruct a as [x1 x2], b as [z1 z2]. cbn [re im] in *. unfold C0. f_equal; lra.
  - destruct b as [z1 z2]. cbn [re im] in *. unfold C0. f_equal; lra.
Qed.

Lemma C45_ml_proof :
(* the result is a vector of constellation points at minimal distance *)
  forall (y : list C) (h : list (list C)) (n : nat) (c : list C), columns n h -> length y = length h -> c <> [] ->
    exists x, mimo_ml y h n c = Ok x /\ ml_decision y h c n x.
Proof.
  exact mimo_ml_ok.
Qed.

Lemma C45_noiseless_proof :
(* no noise and a channel that separates the candidates: the sent vector *)
  forall (h : list (list C)) (n : nat) (c x : list C), columns n h -> vector_of c n x -> c <> [] ->
    (forall a b, vector_of c n a -> vector_of c n b -> map (fun row => apply_row row a) h = map (fun row => apply_row row b) h -> a = b) ->
    mimo_ml (map (fun row => apply_row row x) h) h n c = Ok x.
Proof.
  intros h n c x Hh Hx Hc Hi. destruct (mimo_ml_ok (map (fun row => apply_row row x) h) h n c Hh ltac:(apply map_length) Hc) as (x' & E & Hml). rewrite E. f_equal. exact (ml_noiseless h c n x x' Hx Hi Hml).
Qed.

Lemma C45_errors_proof :
(* no constellation points (and at least one antenna), or y and h of different heights: ValueError *)
  forall (y : list C) (h : list (list C)) (n : nat) (c : list C),
    ((1 <= n)%nat -> mimo_ml y h n [] = Err ValueError) /\ ((2 <= length y)%nat -> (2 <= length h)%nat -> length y <> length h -> c <> [] -> mimo_ml y h n c = Err ValueError).
Proof.
  intros y h n c. split.
  - intros Hn. unfold mimo_ml. cbn [length]. rewrite Nat.pow_0_l by lia. reflexivity.
  - intros H1 H2 H3 Hc. unfold mimo_ml. assert (Hp : (length c ^ n <> 0)%nat) by (apply Nat.pow_nonzero; destruct c; [congruence|discriminate]). destruct (length c ^ n)%nat as [|k]; [lia|]. cbn [seq mapM]. unfold dist2 at 1.
    assert (F : np_broadcast2 y (matvec h (column (x_ideal c n) 0)) = Err ValueError). { unfold np_broadcast2. assert (L : length (matvec h (column (x_ideal c n) 0)) = length h) by apply map_length. rewrite L. destruct (Nat.eqb_spec (length y) (length h)); [lia|]. destruct y as [|y0 [|y1 y]]; cbn [length] in H1; try lia. destruct (matvec h (column (x_ideal c n) 0)) as [|z0 [|z1 z]]; cbn [length] in L; try lia. reflexivity. }
    rewrite F. reflexivity.
Qed.

Lemma C46_full_width_proof :
(* K at least m^(n-1): the hard output is a maximum-likelihood decision, whatever QR decomposition numpy returns, however
     argsort breaks ties and whatever np.empty contains *)
  forall argsort garbage (y : list C) (h q r : list (list C)) (n : nat) (c : list C) (K : nat) (v : R) demode, sorting argsort -> length garbage = n ->
    is_qr h n q r -> (n <= length h)%nat -> length y = length h -> c <> [] -> (length c ^ (n - 1) <= K)%nat ->
    exists x, kbest argsort garbage y h q r n c K v Hard demode = Ok (KHard x) /\ ml_decision y h c n x.
Proof.
  intros argsort garbage y h q r n c K v demode HS Hg HQ Hn Hy Hc HK. assert (HK1 : (1 <= K)%nat). { assert (length c ^ (n - 1) <> 0)%nat by (apply Nat.pow_nonzero; destruct c; [congruence|discriminate]). lia. }
  destruct (kb_optimal argsort garbage y n q r c K HS Hc HK1 Hg h HQ Hy HK) as (k0 & rest & E & Hml). exists (cx k0). split; [|exact Hml]. rewrite kbest_hard by assumption. rewrite E. reflexivity.
Qed.

Lemma C46_noiseless_proof :
(* no noise: any K >= 1 recovers the sent vector if the channel is injective *)
  forall argsort garbage (h q r : list (list C)) (n : nat) (c x : list C) (K : nat) (v : R) demode, sorting argsort -> length garbage = n ->
    is_qr h n q r -> (n <= length h)%nat -> injective n h -> vector_of c n x -> c <> [] -> (1 <= K)%nat ->
    kbest argsort garbage (map (fun row => apply_row row x) h) h q r n c K v Hard demode = Ok (KHard x).
Proof.
  intros argsort garbage h q r n c x K v demode HS Hg HQ Hn Hi Hx Hc HK. destruct (kb_noiseless argsort garbage (map (fun row => apply_row row x) h) n q r c K HS Hc HK Hg h HQ ltac:(apply map_length) x Hx eq_refl (full_rank_diag h n q r HQ Hi)) as (k0 & rest & E & Ex).
  rewrite kbest_hard by (assumption || apply map_length). rewrite E, Ex. reflexivity.
Qed.

Lemma C46_soft_proof :
(* soft output: max-log LLRs over a list of at most K vectors; all vectors if K is at least m^n *)
  forall argsort garbage (y : list C) (h q r : list (list C)) (n b : nat) (c : list C) (K : nat) (v : R) demode lab, sorting argsort -> length garbage = n ->
    columns n h -> (n <= length h)%nat -> length y = length h -> c <> [] -> (1 <= K)%nat -> (0 < v)%R -> demaps demode c b lab ->
    exists (pts : list (list C)) (l : list ext), kbest argsort garbage y h q r n c K v Soft demode = Ok (KSoft l) /\
      pts <> [] /\ (length pts <= K)%nat /\ Forall (vector_of c n) pts /\ ((length c ^ n <= K)%nat -> forall x, vector_of c n x -> In x pts) /\ length l = (n * b)%nat /\
      forall k, (k < n * b)%nat -> exists d0 d1, smallest y h pts (fun x => nth k (flat_map lab x) 2 = 0) d0 /\ smallest y h pts (fun x => nth k (flat_map lab x) 2 = 1) d1 /\ nth k l NaN = max_log_value v d0 d1.
Proof.
  intros argsort garbage y h q r n b c K v demode lab HS Hg Hh Hn Hy Hc HK Hv HD. destruct (good_run argsort garbage y n q r c K HS Hc HK Hg 0 ltac:(lia)) as (G1 & G2 & G3 & G4). set (run := kb_run argsort garbage y n q r c K 0) in *.
  assert (HF : Forall (vector_of c n) (map cx run)). { apply Forall_map. eapply Forall_impl; [|exact G2]. intros k Hk. exact (good_vector _ _ _ _ _ Hk). }
  assert (HN : map cx run <> []) by (destruct run; [congruence|discriminate]). destruct (max_log_ok y h v (map cx run) demode c n b lab Hh Hy HD HN HF) as (l & E & HL & HV). exists (map cx run), l.
  split; [rewrite kbest_soft by assumption; fold run; rewrite E; reflexivity|]. split; [exact HN|]. split; [rewrite map_length; apply kb_run_width, HK|]. split; [exact HF|]. split.
  - intros HKn x Hx. destruct (run_complete argsort garbage y n q r c K HS Hc HK Hg 0 ltac:(lia) ltac:(rewrite Nat.sub_0_r; exact HKn) x Hx) as (k & Hk & Ek). apply in_map_iff. exists k. split; [|exact Hk]. rewrite Forall_forall in G2. pose proof (good_vector _ _ _ _ _ (G2 k Hk)) as (Lk & _). destruct Hx as (Lx & _).
    apply (nth_ext _ _ C0 C0); [lia|]. intros j Hj. apply Ek. lia.
  - split; [exact HL|]. intros k Hk. destruct (HV k Hk) as (d0 & d1 & S0 & S1 & Hd & Ev). exists d0, d1. rewrite value_of in Ev by assumption. auto.
Qed.

Lemma C46_errors_proof :
(* more columns than rows, a bad output type, or K = 0: an exception *)
  forall argsort garbage (y : list C) (h q r : list (list C)) (n : nat) (c : list C) (K : nat) (v : R) t demode,
    ((length h < n)%nat -> kbest argsort garbage y h q r n c K v t demode = Err ValueError) /\
    ((n <= length h)%nat -> length y = length h -> c <> [] -> kbest argsort garbage y h q r n c K v OtherType demode = Err ValueError) /\
    ((1 <= n <= length h)%nat -> length y = length h -> (2 <= length c)%nat -> kbest argsort garbage y h q r n c 0 v t demode = Err ValueError).
Proof.
  intros argsort garbage y h q r n c K v t demode. unfold kbest. split; [|split].
  - intros H. destruct (Nat.ltb_spec (length h) n); [reflexivity|lia].
  - intros H1 H2 H3. destruct (Nat.ltb_spec (length h) n); [lia|]. rewrite H2, Nat.eqb_refl. cbn [negb]. destruct c as [|s c]; [congruence|]. destruct (_ && _ && _); reflexivity.
  - intros H1 H2 H3. destruct (Nat.ltb_spec (length h) n); [lia|]. rewrite H2, Nat.eqb_refl. cbn [negb]. destruct c as [|s c]; [cbn in H3; lia|]. destruct (Nat.eqb_spec (length (s :: c)) 1); [lia|]. destruct (Nat.eqb_spec n 0); [lia|]. reflexivity.
Qed.

Lemma C47_equal_magnitudes_proof :
(* the search ends, after at most m^N rounds (m points, N rows), and all the LLRs have the same magnitude, at most llr_max: they are the bits of some vector of points with
     sign (+ for 0, - for 1) times one number *)
  forall argsort (y : list C) (h q r : list (list C)) (n : nat) (c : list C) (sizes : list nat) demode lab (llr_max : R), sorting argsort -> length y = length h ->
    (2 <= length c)%nat -> demaps demode c (Nat.log2 (length c)) lab -> (0 <= llr_max)%R -> (2 <= length h <= n)%nat -> (length h - 1 <= length sizes)%nat -> Forall (fun s => (1 <= s)%nat) sizes ->
    exists x del, vector_of c (length h) x /\ (0 <= del <= llr_max)%R /\
      forall fuel, (length c ^ length h <= fuel)%nat -> best_first_detector argsort fuel y h q r n c sizes demode llr_max = Some (Ok (map (fun b => if b =? 0 then del else (- del)%R) (flat_map lab x))).
Proof.
  intros argsort y h q r n c sizes demode lab L HS Hy Hm HD HL Hn Hsz H1. destruct (run_llr argsort y h q r n c sizes demode lab L HS Hy Hm HD HL Hsz ltac:(lia) ltac:(lia) Hn H1) as (x & del & A & B & D & _). exists x, del. auto.
Qed.

Lemma C47_ml_proof :
(* stacks that never overflow, square channel: the signs are those of a maximum-likelihood decision, and no LLR is zero if it
     is the only one and the points are distinct *)
  forall argsort (y : list C) (h q r : list (list C)) (n : nat) (c : list C) (sizes : list nat) demode lab (llr_max : R), sorting argsort -> length y = length h ->
    (2 <= length c)%nat -> demaps demode c (Nat.log2 (length c)) lab -> (0 <= llr_max)%R -> (2 <= n)%nat -> is_qr h n q r -> length h = n -> (n - 1 <= length sizes)%nat -> Forall (fun s => (length c ^ n <= s)%nat) sizes ->
    exists x del, ml_decision y h c n x /\ (0 <= del <= llr_max)%R /\
      (forall fuel, (length c ^ n <= fuel)%nat -> best_first_detector argsort fuel y h q r n c sizes demode llr_max = Some (Ok (map (fun b => if b =? 0 then del else (- del)%R) (flat_map lab x)))) /\
      ((0 < llr_max)%R -> NoDup c -> (forall x', ml_decision y h c n x' -> x' = x) -> (0 < del)%R).
Proof.
  intros argsort y h q r n c sizes demode lab L HS Hy Hm HD HL Hn HQ Hh Hsz Hs. exact (run_ml argsort y h q r n c sizes demode lab L HS Hy Hm HD HL ltac:(lia) ltac:(lia) ltac:(lia) Hn HQ Hh Hs).
Qed.

Lemma C47_magnitude_proof :
(* stacks that never overflow, square channel, distinct points: the common magnitude is the gap between the maximum-likelihood decision
     and the nearest vector that differs from it beyond the first entry, or llr_max if that is smaller *)
  forall argsort (y : list C) (h q r : list (list C)) (n : nat) (c : list C) (sizes : list nat) demode lab (llr_max : R), sorting argsort -> length y = length h ->
    (2 <= length c)%nat -> NoDup c -> demaps demode c (Nat.log2 (length c)) lab -> (0 <= llr_max)%R -> (2 <= n)%nat -> is_qr h n q r -> length h = n -> (n - 1 <= length sizes)%nat -> Forall (fun s => (length c ^ n <= s)%nat) sizes ->
    exists x del, ml_decision y h c n x /\ (0 <= del <= llr_max)%R /\
      (forall fuel, (length c ^ n <= fuel)%nat -> best_first_detector argsort fuel y h q r n c sizes demode llr_max = Some (Ok (map (fun b => if b =? 0 then del else (- del)%R) (flat_map lab x)))) /\
      (forall x', vector_of c n x' -> tl x' <> tl x -> (del <= sq_dist y h x' - sq_dist y h x)%R) /\
      (del = llr_max \/ exists x', vector_of c n x' /\ tl x' <> tl x /\ del = (sq_dist y h x' - sq_dist y h x)%R).
Proof.
  intros argsort y h q r n c sizes demode lab L HS Hy Hm HU HD HL Hn HQ Hh Hsz Hs. exact (run_gap argsort y h q r n c sizes demode lab L HS Hy Hm HD HL ltac:(lia) ltac:(lia) ltac:(lia) Hn HQ Hh HU Hs).
Qed.

Lemma C47_tall_proof :
(* more rows than columns, or a single row: TypeError after a finite search *)
  forall argsort (y : list C) (h q r : list (list C)) (n : nat) (c : list C) (sizes : list nat) demode lab (llr_max : R), sorting argsort -> length y = length h ->
    (2 <= length c)%nat -> demaps demode c (Nat.log2 (length c)) lab -> (0 <= llr_max)%R -> (1 <= n)%nat -> (1 <= length h)%nat -> (length h - 1 <= length sizes)%nat -> (n < length h)%nat \/ length h = 1%nat ->
    forall fuel, (length c ^ length h <= fuel)%nat -> best_first_detector argsort fuel y h q r n c sizes demode llr_max = Some (Err TypeError).
Proof.
  intros argsort y h q r n c sizes demode lab L HS Hy Hm HD HL Hn H1 Hsz Hcase. exact (run_tall argsort y h q r n c sizes demode lab L HS Hy Hm HD HL Hsz H1 Hn Hcase).
Qed.

Lemma C47_max_log_refuted_proof :
(* the returned values are in general not max-log LLRs, nor proportional to them, however large the stacks and llr_max are *)
  exists (y : list C) (h : list (list C)) (c : list C) (pts : list (list C)) demode lab (l0 l1 : R),
    length y = 2%nat /\ length h = 2%nat /\ columns 2 h /\ injective 2 h /\ demaps demode c 1 lab /\ (forall x, vector_of c 2 x <-> In x pts) /\
    max_log_approx y h 1 pts demode = Ok [Fin l0; Fin l1] /\
    forall argsort q r sizes llr_max fuel alpha, sorting argsort -> is_qr h 2 q r -> sizes <> [] -> Forall (fun s => (1 <= s)%nat) sizes -> (0 <= llr_max)%R -> alpha <> 0%R ->
      best_first_detector argsort fuel y h q r 2 c sizes demode llr_max <> Some (Ok [(alpha * l0)%R; (alpha * l1)%R]).
Proof.
  set (demode := fun x : list C => Ok (map (fun s => if Rlt_dec 0 (re s) then 1 else 0) x) : res (list Z)). set (lab := fun s : C => [if Rlt_dec 0 (re s) then 1 else 0]). set (pts := [[mkC (-1) 0; mkC (-1) 0]; [mkC (-1) 0; C1]; [C1; mkC (-1) 0]; [C1; C1]]).
  set (y := [mkC (1 / 2) 0; mkC 2 0]). set (h := id2). set (c := cx2). assert (HD : demaps demode c 1 lab).
  { split.
    - intros s Hs. split; [reflexivity|]. unfold lab. constructor; [|constructor]. destruct (Rlt_dec 0 (re s)); [right|left]; reflexivity.
    - intros x _. reflexivity. }
  assert (Hh : columns 2 h) by (repeat constructor). assert (HP : forall x, vector_of c 2 x <-> In x pts).
  { intros x. split.
    - intros (Lx & Fx). destruct x as [|a [|b [|? ?]]]; try discriminate. inversion Fx as [|? ? Ha Fx']; subst. inversion Fx' as [|? ? Hb _]; subst. destruct Ha as [<-|[<-|[]]], Hb as [<-|[<-|[]]]; cbn; tauto.
    - intros Hx. cbn in Hx. assert (In (mkC (-1) 0) c /\ In C1 c) as (I0 & I1) by (cbn; tauto). destruct Hx as [<-|[<-|[<-|[<-|[]]]]]; (split; [reflexivity|repeat constructor; assumption]). }
  assert (HF : Forall (vector_of c 2) pts) by (apply Forall_forall; intros x Hx; apply HP, Hx).
  assert (SD : forall a b, sq_dist y h [mkC a 0; mkC b 0] = ((1 / 2 - a) * (1 / 2 - a) + (2 - b) * (2 - b))%R). { intros a b. unfold sq_dist, apply_row, h, id2, y. cbn [length seq map nth Rsum Csum fold_right]. unfold Cnorm2, Csub, Cadd, Cmul, C1, C0. cbn [re im]. ring. }
  assert (Lm : lab (mkC (-1) 0) = [0]) by (unfold lab; cbn [re]; destruct (Rlt_dec 0 (-1)); [lra|reflexivity]). assert (Lp : lab C1 = [1]) by (unfold lab, C1; cbn [re]; destruct (Rlt_dec 0 1); [reflexivity|lra]).
  assert (SM : forall k t d w, smallest y h pts (fun x => nth k (flat_map lab x) 2 = t) d -> (exists x, In x pts /\ nth k (flat_map lab x) 2 = t /\ sq_dist y h x = w) -> (forall x, In x pts -> nth k (flat_map lab x) 2 = t -> (w <= sq_dist y h x)%R) -> d = Some w).
  { intros k t d w S (x & X1 & X2 & X3) Lo. destruct d as [a|]; cbn [smallest] in S; [|exfalso; exact (S x X1 X2)]. destruct S as ((z & Z1 & Z2 & <-) & S2). f_equal. apply Rle_antisym; [rewrite <- X3; apply S2; assumption|apply Lo; assumption]. }
  assert (FL : forall a b, flat_map lab [a; b] = lab a ++ lab b) by (intros; cbn [flat_map]; rewrite app_nil_r; reflexivity).
  destruct (max_log_ok y h 1 pts demode c 2 1 lab Hh eq_refl HD ltac:(discriminate) HF) as (l & El & Ll & Hl).
  assert (Low : forall k t w, (forall a b, In a c -> In b c -> nth k (lab a ++ lab b) 2 = t -> (w <= sq_dist y h [a; b])%R) -> forall x, In x pts -> nth k (flat_map lab x) 2 = t -> (w <= sq_dist y h x)%R).
  { intros k t w H x Hx Ht. apply HP in Hx as (Lx & Fx). destruct x as [|a [|b [|? ?]]]; try discriminate. inversion Fx as [|? ? Ha Fx']; subst. inversion Fx' as [|? ? Hb _]; subst. apply H; [assumption|assumption|]. rewrite <- FL. reflexivity. }
  assert (G : forall k d0 d1 v0 v1, smallest y h pts (fun x => nth k (flat_map lab x) 2 = 0) d0 -> smallest y h pts (fun x => nth k (flat_map lab x) 2 = 1) d1 -> (k = 0%nat /\ v0 = (13 / 4)%R /\ v1 = (5 / 4)%R) \/ (k = 1%nat /\ v0 = (37 / 4)%R /\ v1 = (5 / 4)%R) -> d0 = Some v0 /\ d1 = Some v1).
  { intros k d0 d1 v0 v1 S0 S1 [(-> & -> & ->)|(-> & -> & ->)]; split.
    - apply (SM 0%nat 0 d0 _ S0); [exists [mkC (-1) 0; C1]; split; [cbn; tauto|]; rewrite FL, Lm, Lp; split; [reflexivity|unfold C1; rewrite SD; field]|]. apply Low. intros a b Ha Hb. destruct Ha as [<-|[<-|[]]], Hb as [<-|[<-|[]]]; rewrite ?Lm, ?Lp; cbn [app nth]; intros Ht; try discriminate Ht; unfold C1; rewrite SD; lra.
    - apply (SM 0%nat 1 d1 _ S1); [exists [C1; C1]; split; [cbn; tauto|]; rewrite FL, Lp; split; [reflexivity|unfold C1; rewrite SD; field]|]. apply Low. intros a b Ha Hb. destruct Ha as [<-|[<-|[]]], Hb as [<-|[<-|[]]]; rewrite ?Lm, ?Lp; cbn [app nth]; intros Ht; try discriminate Ht; unfold C1; rewrite SD; lra.
    - apply (SM 1%nat 0 d0 _ S0); [exists [C1; mkC (-1) 0]; split; [cbn; tauto|]; rewrite FL, Lm, Lp; split; [reflexivity|unfold C1; rewrite SD; field]|]. apply Low. intros a b Ha Hb. destruct Ha as [<-|[<-|[]]], Hb as [<-|[<-|[]]]; rewrite ?Lm, ?Lp; cbn [app nth]; intros Ht; try discriminate Ht; unfold C1; rewrite SD; lra.
    - apply (SM 1%nat 1 d1 _ S1); [exists [C1; C1]; split; [cbn; tauto|]; rewrite FL, Lp; split; [reflexivity|unfold C1; rewrite SD; field]|]. apply Low. intros a b Ha Hb. destruct Ha as [<-|[<-|[]]], Hb as [<-|[<-|[]]]; rewrite ?Lm, ?Lp; cbn [app nth]; intros Ht; try discriminate Ht; unfold C1; rewrite SD; lra. }
  assert (V : l = [Fin (-1); Fin (-4)]).
  { destruct l as [|e0 [|e1 [|? ?]]]; try discriminate Ll. destruct (Hl 0%nat ltac:(lia)) as (d0 & d1 & S0 & S1 & Hd & Ev). destruct (G 0%nat d0 d1 _ _ S0 S1 (or_introl (conj eq_refl (conj eq_refl eq_refl)))) as (-> & ->). rewrite value_of in Ev by (lra || assumption). cbn [max_log_value nth] in Ev. subst e0.
    destruct (Hl 1%nat ltac:(lia)) as (d0 & d1 & S0' & S1' & Hd' & Ev'). destruct (G 1%nat d0 d1 _ _ S0' S1' (or_intror (conj eq_refl (conj eq_refl eq_refl)))) as (-> & ->). rewrite value_of in Ev' by (lra || assumption). cbn [max_log_value nth] in Ev'. subst e1. do 2 f_equal; [field|f_equal; f_equal; field]. }
  exists y, h, c, pts, demode, lab, (-1)%R, (-4)%R. do 3 (split; [first [reflexivity|exact Hh]|]). split.
  { intros v Hv H. destruct v as [|a [|b [|? ?]]]; try discriminate. pose proof (H _ (or_introl eq_refl)) as H1. pose proof (H _ (or_intror (or_introl eq_refl))) as H2. unfold apply_row in H1, H2. cbn [length seq map nth Csum fold_right] in H1, H2. unfold Cadd, Cmul, C1, C0 in H1, H2. cbn [re im] in H1, H2. injection H1 as A1 A2. injection H2 as B1 B2. destruct a as [x1 x2], b as [z1 z2]. cbn [re im] in *. unfold repeat, C0. f_equal; [f_equal; lra|f_equal; f_equal; lra]. }
  split; [exact HD|]. split; [exact HP|]. split; [rewrite El, V; reflexivity|]. intros argsort q r sizes L fuel alpha HS HQ Hne H1 HL Ha F.
  destruct (run_llr argsort y h q r 2 c sizes demode lab L HS eq_refl ltac:(cbn; lia) HD HL ltac:(cbn [length h id2]; destruct sizes; [congruence|cbn; lia]) ltac:(cbn; lia) ltac:(lia) ltac:(cbn; lia) H1) as (x & del & Vx & Hdel & Run & _).
  assert (M : exists b0 b1, flat_map lab x = [b0; b1]). { destruct Vx as (Lx & _). destruct x as [|a [|b [|? ?]]]; try discriminate Lx. eexists _, _. reflexivity. }
  destruct M as (b0 & b1 & M). assert (E2 : best_first_detector argsort (Nat.max fuel (length c ^ length h)) y h q r 2 c sizes demode L = Some (Ok [(alpha * -1)%R; (alpha * -4)%R])) by (apply (bfd_more argsort fuel); [lia|exact F]).
  rewrite Run in E2 by lia. rewrite M in E2. cbn [map] in E2. injection E2 as X0 X1. destruct (b0 =? 0), (b1 =? 0); apply Ha; lra.
Qed.

Lemma C47_demapper_proof :
(* a modem's hard demodulation is a demapper in the sense of the theorems above: label l is its binary expansion *)
  forall (c : list C) (rg : bool) (md : modem) (v : R), modem_init c rg = Ok md -> NoDup c -> (2 <= length c)%nat ->
    exists lab : C -> list Z,
      demaps (fun x => match demodulate md x Hard v with Ok (inl b) => Ok b | Ok (inr _) => Err TypeError | Err e => Err e end) c (Nat.log2 (length c)) lab /\
      forall l j, (l < length c)%nat -> (j < num_bits md)%nat -> nth j (lab (nth l (points md) C0)) 0 = digit (num_bits md) l j.
Proof.
  intros c rg md v E ND H2. destruct (modem_demaps c rg md v E ND H2) as (_ & lab & HD & HL). exists lab. split; [exact HD|]. intros l j Hl Hj. rewrite HL by exact Hl. rewrite bits_msb_nth by exact Hj. unfold digit. apply Z.testbit_spec'. lia.
Qed.

Lemma C48_bit_level_proof :
(* the new channel applied to the bits b is the old channel applied to the weighted sums of the groups of bits *)
  forall (H : list (list C)) (n : nat) (w : list C), columns n H -> (length w mod 2 = 0)%nat ->
    exists A, bit_lvl_repr H n w = Ok A /\ length A = length H /\ columns (n * length w) A /\
      forall b, length b = (n * length w)%nat ->
        map (fun row => apply_row row b) A =
        map (fun row => apply_row row (map (fun j => Csum (map (fun k => (nth k w C0 * nth (j * length w + k) b C0)%C) (seq 0 (length w)))) (seq 0 n))) H.
Proof.
  intros H n w Hc Hw. destruct (bit_lvl_ok H n w (repeat C0 (n * length w)) Hc Hw ltac:(apply repeat_length)) as (A & E & L1 & L2 & _). exists A. split; [exact E|]. split; [exact L1|]. split; [exact L2|]. intros b Hb. destruct (bit_lvl_ok H n w b Hc Hw Hb) as (A' & E' & _ & _ & F). rewrite E in E'. injection E' as <-. exact F.
Qed.

Lemma C48_odd_proof :
forall (H : list (list C)) (n : nat) (w : list C), (length w mod 2 = 1)%nat -> bit_lvl_repr H n w = Err ValueError.
Proof.
  intros H n w Hw. unfold bit_lvl_repr. rewrite Hw. reflexivity.
Qed.

Lemma C49_max_log_proof :
(* LLR number k from the smallest squared distances among the listed points with bit k equal to 0 and to 1 *)
  forall (y : list C) (h : list (list C)) (v : R) (pts : list (list C)) demode (c : list C) (n b : nat) lab, columns n h -> length y = length h -> demaps demode c b lab -> pts <> [] -> Forall (vector_of c n) pts -> (0 < v)%R ->
    exists l, max_log_approx y h v pts demode = Ok l /\ length l = (n * b)%nat /\
      forall k, (k < n * b)%nat -> exists d0 d1, smallest y h pts (fun x => nth k (flat_map lab x) 2 = 0) d0 /\ smallest y h pts (fun x => nth k (flat_map lab x) 2 = 1) d1 /\
        (d0 <> None \/ d1 <> None) /\ nth k l NaN = max_log_value v d0 d1.
Proof.
  intros y h v pts demode c n b lab Hh Hy HD HN HF Hv. destruct (max_log_ok y h v pts demode c n b lab Hh Hy HD HN HF) as (l & E & HL & HV). exists l. split; [exact E|]. split; [exact HL|]. intros k Hk. destruct (HV k Hk) as (d0 & d1 & S0 & S1 & Hd & Ev). exists d0, d1. rewrite value_of in Ev by assumption. auto.
Qed.

Lemma C49_zero_noise_proof :
(* noise variance 0: the sign of infinity tells the closer hypothesis, NaN on a tie; no points at all: ValueError *)
  forall (y : list C) (h : list (list C)) (pts : list (list C)) demode (c : list C) (n b : nat) lab, columns n h -> length y = length h -> demaps demode c b lab -> Forall (vector_of c n) pts ->
    (pts <> [] -> exists l, max_log_approx y h 0 pts demode = Ok l /\ length l = (n * b)%nat /\
      forall k, (k < n * b)%nat -> exists d0 d1, smallest y h pts (fun x => nth k (flat_map lab x) 2 = 0) d0 /\ smallest y h pts (fun x => nth k (flat_map lab x) 2 = 1) d1 /\
        match d0, d1 with
        | Some a, Some e => ((a < e)%R -> nth k l NaN = PInf) /\ ((e < a)%R -> nth k l NaN = MInf) /\ (a = e -> nth k l NaN = NaN)
        | Some _, None => nth k l NaN = PInf | None, Some _ => nth k l NaN = MInf | None, None => False
        end) /\
    (pts = [] -> max_log_approx y h 0 pts demode = Err ValueError).
Proof.
  intros y h pts demode c n b lab Hh Hy HD HF. split.
  - intros HN. destruct (max_log_ok y h 0 pts demode c n b lab Hh Hy HD HN HF) as (l & E & HL & HV). exists l. split; [exact E|]. split; [exact HL|]. intros k Hk. destruct (HV k Hk) as (d0 & d1 & S0 & S1 & Hd & Ev). exists d0, d1. split; [exact S0|]. split; [exact S1|]. rewrite Ev, Rmult_0_r.
    destruct d0 as [a|], d1 as [e|]; cbn [ext_sub ext_opp ext_div]; [|destruct (Rlt_dec 0 0); lra || reflexivity|destruct (Rlt_dec 0 0); lra || reflexivity|destruct Hd; congruence].
    destruct (Req_EM_T 0 0) as [_|]; [|lra]. repeat split; intros H; destruct (Rlt_dec 0 _); try lra; try reflexivity; destruct (Rlt_dec _ 0); lra || reflexivity.
  - intros ->. unfold max_log_approx. destruct HD as (_ & D). rewrite (D (concat []) (Forall_nil _)). reflexivity.
Qed.

Lemma C49_sign_proof :
(* two points, one antenna: Modem.demodulate's soft output is -2 times the value of max_log_approx *)
  forall (p0 p1 y : C) (v : R), (0 < v)%R -> p0 <> p1 ->
    exists md x, modem_init [p0; p1] true = Ok md /\
      max_log_approx [y] [[C1]] v [[p0]; [p1]] (fun s => match demodulate md s Hard v with Ok (inl b) => Ok b | Ok (inr _) => Err TypeError | Err e => Err e end) = Ok [Fin x] /\
      demodulate md [y] Soft v = Ok (inr [(-2 * x)%R]).
Proof.
  intros p0 p1 y v Hv Hne. destruct (C43_two_points_proof p0 p1 y v Hv) as (md & E & ES). assert (ND : NoDup [p0; p1]) by (constructor; [intros [F|[]]; congruence|constructor; [intros []|constructor]]). destruct (modem_demaps [p0; p1] true md v E ND ltac:(cbn; lia)) as (HB & lab & HD & Hlab).
  assert (EP : points md = [p0; p1]) by (unfold modem_init in E; cbn in E; injection E as <-; reflexivity). change (Nat.log2 (length [p0; p1])) with 1%nat in *. rewrite HB, EP in Hlab. pose proof (Hlab 0%nat ltac:(cbn; lia)) as L0. pose proof (Hlab 1%nat ltac:(cbn; lia)) as L1. cbn [nth] in L0, L1. change (bits_msb 1 (Z.of_nat 0)) with [0] in L0. change (bits_msb 1 (Z.of_nat 1)) with [1] in L1.
  assert (HF : Forall (vector_of [p0; p1] 1) [[p0]; [p1]]) by (constructor; [|constructor; [|constructor]]; (split; [reflexivity|]; constructor; [cbn; tauto|constructor])).
  destruct (max_log_ok [y] [[C1]] v [[p0]; [p1]] _ [p0; p1] 1 1 lab ltac:(repeat constructor) eq_refl HD ltac:(discriminate) HF) as (l & El & Ll & Hl). destruct (Hl 0%nat ltac:(lia)) as (d0 & d1 & S0 & S1 & Hd & Ev). rewrite value_of in Ev by assumption.
  assert (D : forall p, sq_dist [y] [[C1]] [p] = Cnorm2 (y - p)%C). { intros p. unfold sq_dist, apply_row. cbn [length seq map nth Rsum Csum fold_right]. unfold Cnorm2, Csub, Cadd, Cmul, C1, C0. cbn [re im]. ring. }
  assert (N0 : nth 0 (flat_map lab [p0]) 2 = 0) by (cbn [flat_map]; rewrite L0; reflexivity). assert (N1 : nth 0 (flat_map lab [p1]) 2 = 1) by (cbn [flat_map]; rewrite L1; reflexivity).
  assert (X0 : d0 = Some (Cnorm2 (y - p0)%C)). { destruct d0 as [a|]; cbn [smallest] in S0; [|exfalso; apply (S0 [p0]); [cbn; tauto|exact N0]]. destruct S0 as ((x & [<-|[<-|[]]] & Px & <-) & _); [rewrite D; reflexivity|rewrite N1 in Px; discriminate]. }
  assert (X1 : d1 = Some (Cnorm2 (y - p1)%C)). { destruct d1 as [a|]; cbn [smallest] in S1; [|exfalso; apply (S1 [p1]); [cbn; tauto|exact N1]]. destruct S1 as ((x & [<-|[<-|[]]] & Px & <-) & _); [rewrite N0 in Px; discriminate|rewrite D; reflexivity]. }
  subst d0 d1. cbn [max_log_value] in Ev. exists md, ((Cnorm2 (y - p1)%C - Cnorm2 (y - p0)%C) / (2 * v))%R. split; [exact E|]. split.
  - rewrite El. f_equal. destruct l as [|e [|? ?]]; try discriminate Ll. cbn [nth] in Ev. rewrite Ev. reflexivity.
  - rewrite ES. do 3 f_equal. field. lra.
Qed.

Lemma C73_ml_proof :
(* noise shorter than half the distance from the noise-free signal h x to the other noise-free signals: the maximum-likelihood
     detector, and K-best with K at least m^(n-1), return x; best-first search with stacks that never overflow gives its bits *)
  forall (y : list C) (h : list (list C)) (n : nat) (c x : list C), columns n h -> length y = length h -> vector_of c n x -> ml_margin y h c n x -> c <> [] ->
    mimo_ml y h n c = Ok x /\
    (forall argsort garbage q r (K : nat) (v : R) demode, sorting argsort -> length garbage = n -> is_qr h n q r -> (n <= length h)%nat -> (length c ^ (n - 1) <= K)%nat ->
       kbest argsort garbage y h q r n c K v Hard demode = Ok (KHard x)) /\
    (forall argsort q r (sizes : list nat) demode lab (llr_max : R), sorting argsort -> (2 <= length c)%nat -> demaps demode c (Nat.log2 (length c)) lab -> (0 <= llr_max)%R -> (2 <= n)%nat -> is_qr h n q r -> length h = n ->
       (n - 1 <= length sizes)%nat -> Forall (fun s => (length c ^ n <= s)%nat) sizes ->
       exists del, (0 <= del <= llr_max)%R /\ (NoDup c -> (0 < llr_max)%R -> (0 < del)%R) /\
         forall fuel, (length c ^ n <= fuel)%nat -> best_first_detector argsort fuel y h q r n c sizes demode llr_max = Some (Ok (map (fun b => if b =? 0 then del else (- del)%R) (flat_map lab x)))).
Proof.
  intros y h n c x Hh Hy Hx HM Hc. split; [|split].
  - destruct (mimo_ml_ok y h n c Hh Hy Hc) as (x' & E & Hml). rewrite E. f_equal. exact (margin_ml y h c n x x' Hy Hx HM Hml).
  - intros argsort garbage q r K v demode HS Hg HQ Hn HK. destruct (C46_full_width_proof argsort garbage y h q r n c K v demode HS Hg HQ Hn Hy Hc HK) as (x' & E & Hml). rewrite E. do 2 f_equal. exact (margin_ml y h c n x x' Hy Hx HM Hml).
  - intros argsort q r sizes demode lab L HS Hm HD HL Hn HQ Hl Hsz Hs. destruct (C47_ml_proof argsort y h q r n c sizes demode lab L HS Hy Hm HD HL Hn HQ Hl Hsz Hs) as (x' & del & Hml & B & F & G). rewrite (margin_ml y h c n x x' Hy Hx HM Hml) in F, G. exists del. split; [exact B|]. split; [|exact F]. intros ND H0. apply (G H0 ND). intros x0 H1. exact (margin_ml y h c n x x0 Hy Hx HM H1).
Qed.

Lemma C73_any_width_proof :
(* K-best of any width, even K = 1 (successive cancellation): enough that the noise is shorter than half of |h v| for every v
     whose last non-zero entry is a difference of two points *)
  forall argsort garbage (y : list C) (h q r : list (list C)) (n : nat) (c x : list C) (K : nat) (v : R) demode, sorting argsort -> length garbage = n ->
    is_qr h n q r -> (n <= length h)%nat -> length y = length h -> vector_of c n x -> successive_margin y h c n x -> c <> [] -> (1 <= K)%nat ->
    kbest argsort garbage y h q r n c K v Hard demode = Ok (KHard x).
Proof.
  intros argsort garbage y h q r n c x K v demode HS Hg HQ Hn Hy Hx HM Hc HK. destruct (kb_margin argsort garbage y n q r c K h x HS Hc HK Hg HQ Hy Hx HM) as (k0 & rest & E & Ex). rewrite kbest_hard by assumption. rewrite E, Ex. reflexivity.
Qed.

Lemma C73_soft_proof :
(* under the same margin every soft value of K-best has the sign of the sent bit: positive (possibly infinite) for 0, negative
     for 1 *)
  forall argsort garbage (y : list C) (h q r : list (list C)) (n b : nat) (c x : list C) (K : nat) (v : R) demode lab, sorting argsort -> length garbage = n ->
    is_qr h n q r -> (n <= length h)%nat -> length y = length h -> vector_of c n x -> successive_margin y h c n x -> c <> [] -> (1 <= K)%nat -> (0 < v)%R -> demaps demode c b lab ->
    exists l : list ext, kbest argsort garbage y h q r n c K v Soft demode = Ok (KSoft l) /\ length l = (n * b)%nat /\
      forall k, (k < n * b)%nat -> (nth k (flat_map lab x) 2 = 0 -> positive (nth k l NaN)) /\ (nth k (flat_map lab x) 2 = 1 -> negative (nth k l NaN)).
Proof.
  intros argsort garbage y h q r n b c x K v demode lab HS Hg HQ Hn Hy Hx HM Hc HK Hv HD. assert (Hh : columns n h) by apply HQ. destruct (good_run argsort garbage y n q r c K HS Hc HK Hg 0 ltac:(lia)) as (G1 & G2 & G3 & G4). destruct (kb_margin argsort garbage y n q r c K h x HS Hc HK Hg HQ Hy Hx HM) as (k0 & rest & E & Ex). set (run := kb_run argsort garbage y n q r c K 0) in *.
  assert (HF : Forall (vector_of c n) (map cx run)). { apply Forall_map. eapply Forall_impl; [|exact G2]. intros k Hk. exact (good_vector _ _ _ _ _ Hk). }
  assert (HN : map cx run <> []) by (destruct run; [congruence|discriminate]). destruct (max_log_ok y h v (map cx run) demode c n b lab Hh Hy HD HN HF) as (l & El & HL & HV). exists l.
  split; [rewrite kbest_soft by assumption; fold run; rewrite El; reflexivity|]. split; [exact HL|]. intros k Hk. destruct (HV k Hk) as (d0 & d1 & S0 & S1 & Hd & Ev). rewrite value_of in Ev by assumption. rewrite Ev.
  apply (max_log_sign y h v (map cx run) lab x k d0 d1 Hv); [rewrite E; cbn [map]; left; exact Ex| |exact S0|exact S1]. intros x' Hx' Hne. rewrite Forall_forall in HF. exact (margin_lt y h c n x Hy (successive_ml y h c n x Hh Hx HM) x' (HF x' Hx') Hne).
Qed.

Lemma C73_best_first_proof :
(* best-first search with stacks of any positive sizes, even 1 each: under that margin (square channel) it gives the bits of
     the sent vector, and no LLR is zero if the points are distinct *)
  forall argsort (y : list C) (h q r : list (list C)) (n : nat) (c x : list C) (sizes : list nat) demode lab (llr_max : R), sorting argsort ->
    is_qr h n q r -> length h = n -> length y = length h -> vector_of c n x -> successive_margin y h c n x -> (2 <= length c)%nat -> demaps demode c (Nat.log2 (length c)) lab -> (0 <= llr_max)%R ->
    (2 <= n)%nat -> (n - 1 <= length sizes)%nat -> Forall (fun s => (1 <= s)%nat) sizes ->
    exists del, (0 <= del <= llr_max)%R /\ (NoDup c -> (0 < llr_max)%R -> (0 < del)%R) /\
      forall fuel, (length c ^ n <= fuel)%nat -> best_first_detector argsort fuel y h q r n c sizes demode llr_max = Some (Ok (map (fun b => if b =? 0 then del else (- del)%R) (flat_map lab x))).
Proof.
  intros argsort y h q r n c x sizes demode lab L HS HQ Hh Hy Hx HM Hm HD HL Hn Hsz H1. destruct (run_llr argsort y h q r n c sizes demode lab L HS Hy Hm HD HL ltac:(lia) ltac:(lia) ltac:(lia) ltac:(lia) H1) as (x' & del & Vx' & Hdel & Run & _ & Pos & Best). rewrite Hh in Vx', Run, Pos, Best. rewrite Nat.min_id in Pos, Best. fold (q_yt y n q) in Pos, Best.
  assert (HQ' := HQ). destruct HQ' as (_ & _ & _ & R1 & R2 & _ & _ & _). destruct Hx as (Lx & Fx). assert (BX : forall i v, (i <= n)%nat -> vector_of c (n - i) v -> (pm (q_yt y n q) r v <= pm (q_yt y n q) r (skipn i x))%R -> v = skipn i x).
  { intros i v Hi (Lv & Fv) Hle. set (w := firstn i x ++ v). assert (Lw : length w = n) by (unfold w; rewrite app_length, firstn_length; lia). assert (Sw : skipn i w = v) by (unfold w; rewrite skipn_app, firstn_length, Nat.min_l, Nat.sub_diag, skipn_all2 by (rewrite ?firstn_length; lia); reflexivity).
    rewrite <- Sw, (pm_pmetric _ r n w (q_yt_length _ _ _) R1 R2 Lw i Hi), (pm_pmetric _ r n x (q_yt_length _ _ _) R1 R2 Lx i Hi) in Hle. rewrite <- Sw.
    assert (NW : forall j, (i <= j < n)%nat -> In (nth j w C0) c). { intros j Hj. unfold w. rewrite app_nth2, firstn_length, Nat.min_l by (rewrite ?firstn_length; lia). rewrite Forall_forall in Fv. apply Fv, nth_In. lia. }
    pose proof (margin_metric (repeat C0 n) y n q r c 1 h x (le_n 1) (repeat_length _ _) HQ Hy (conj Lx Fx) HM w i Lw NW Hi Hle) as MM.
    apply (nth_ext _ _ C0 C0); [rewrite !skipn_length; lia|]. intros j Hj. rewrite skipn_length in Hj. rewrite !skipn_nth. apply MM. lia. }
  specialize (Best x (conj Lx Fx) BX). subst x'. exists del. split; [exact Hdel|]. split; [|exact Run]. intros ND H0. apply (Pos H0 ND). intros z Hz Hne. destruct (Rlt_le_dec (pm (q_yt y n q) r x) (pm (q_yt y n q) r z)) as [|Hle]; [assumption|]. exfalso. apply Hne. specialize (BX 0%nat z ltac:(lia)). rewrite Nat.sub_0_r in BX. apply BX; assumption.
Qed.

Lemma C73_margins_proof :
(* the margin for any width implies the margin for the maximum-likelihood detector *)
  forall (y : list C) (h : list (list C)) (c : list C) (n : nat) (x : list C), columns n h -> vector_of c n x -> successive_margin y h c n x -> ml_margin y h c n x.
Proof.
  exact successive_ml.
Qed.
