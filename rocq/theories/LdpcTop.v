(* Proofs of the LDPC properties C37-C40, C67, C71 and C72. *)
From Coq Require Import Reals Lra QArith Ascii String Permutation.
From Verif Require Import Base TurboSpec LdpcModel LdpcSpec LdpcCheck LdpcAlg LdpcProofs LdpcFile LdpcDecModel LdpcDecProofs LdpcBPSpec LdpcBP LdpcTreeSpec TurboMap LdpcTree LdpcSym LdpcGuar.
Open Scope Z_scope.
Notation nth := List.nth.
Notation length := List.length.

Lemma C37_codewords_proof :
(* the last n_cnodes columns of the parity-check matrix have an integer inverse, e.g. because they are unit triangular *)
  forall (p : ldpc) (H : arr2), describes p H -> (2 <= length (a_rows H) < a_cols H)%nat -> int_invertible H \/ unit_lower H \/ unit_upper H -> p_gen p = None \/ p_matrix p = None ->
    exists p' : ldpc, p_matrix p' = Some H /\
      forall msg : list Z, bits msg -> exists blocks : list (list Z),
        coded H msg blocks /\
        (* the first call computes the matrices, later calls reuse them *)
        triang_encode msg p true = (p', Ok blocks) /\ triang_encode msg p' true = (p', Ok blocks) /\
        (* without padding: the same when the length is a multiple of the message block length, else ValueError *)
        let r := if (length msg mod (a_cols H - length (a_rows H)) =? 0)%nat then Ok blocks else Err ValueError in
        triang_encode msg p false = (p', r) /\ triang_encode msg p' false = (p', r).
Proof.
  intros p H HD Hmn HI HN. pose proof HD as (HB & _).
  assert (HInt : integral (length (a_rows H)) (sys_part H)).
  { destruct HI as [HI|[HI|HI]]; [apply inv_integral|apply lower_int|apply upper_int]; try assumption; lia. }
  destruct (build_ready p H HD ltac:(lia) HInt) as (p' & E & HR). exists p'. split; [apply HR|]. intros msg Hm.
  destruct (encode_ready p' H msg HB ltac:(lia) HInt HR Hm) as (blocks & E1 & HC & E2). exists blocks. split; [exact HC|].
  assert (G : forall pad, triang_encode msg p pad = triang_encode msg p' pad).
  { intros pad. unfold triang_encode. destruct HR as (HM & B & _ & HG). rewrite HM, HG. assert (Eb : match p_gen p, p_matrix p with Some _, Some _ => (p, Ok tt) | _, _ => build_matrix p end = (p', Ok tt)).
    { destruct HN as [-> | ->]; [exact E|]. destruct (p_gen p); exact E. }
    rewrite Eb. reflexivity. }
  rewrite !G. repeat split; assumption.
Qed.

Lemma C37_singular_proof :
(* columns dependent over the rationals: RuntimeError; the parity-check matrix is nevertheless added to the dictionary *)
  forall (p : ldpc) (H : arr2) (msg : list Z) (pad : bool), describes p H -> (2 <= length (a_rows H) <= a_cols H)%nat -> singular H -> p_gen p = None ->
    triang_encode msg p pad = (set_matrix p H, Err RuntimeError).
Proof.
  intros p H msg pad HD Hmn HS HG. unfold triang_encode. rewrite HG, (build_singular p H HD ltac:(lia) HS). reflexivity.
Qed.

Lemma C37_odd_determinant_refuted_proof :
(* invertibility modulo 2 is not enough: H = [P | S] with det S = -3, B S = I modulo 2, is a fine code, but the encoder
     (which inverts S over the reals) outputs a word violating a parity check *)
  exists (p : ldpc) (H : arr2) (msg block : list Z), describes p H /\ bits msg /\
    (exists B : nat -> nat -> Z, forall i l, (i < 4)%nat -> (l < 4)%nat -> (sumto 4 (fun q => B i q * hij (a_rows H) q (4 + l))) mod 2 = if (i =? l)%nat then 1 else 0) /\
    snd (triang_encode msg p true) = Ok [block] /\ ~ satisfies H block.
Proof.
  exists {| n_vnodes := 8; n_cnodes := 4; max_vdeg := 3; max_cdeg := 4; v_adj := []; c_adj := [0; 5; 6; 7; 1; 4; 6; 7; 2; 4; 5; 7; 3; 4; 5; 6]; c_map := []; v_map := []; v_deg := []; c_deg := [4; 4; 4; 4]; p_matrix := None; p_gen := None |}.
  exists {| a_cols := 8; a_rows := [[1; 0; 0; 0; 0; 1; 1; 1]; [0; 1; 0; 0; 1; 0; 1; 1]; [0; 0; 1; 0; 1; 1; 0; 1]; [0; 0; 0; 1; 1; 1; 1; 0]] |}.
  exists [1; 0; 0; 0], [1; 0; 0; 0; 1; 0; 0; 0]. split; [|split; [repeat constructor; unfold is_bit; lia|split; [|split]]].
  - apply describesb_ok. vm_compute. reflexivity.
  - exists (fun i l => if (i =? l)%nat then 0 else 1). intros i l Hi Hl. do 4 (destruct i as [|i]; [do 4 (destruct l as [|l]; [reflexivity|]); lia|]). lia.
  - vm_compute. reflexivity.
  - intros Hc. specialize (Hc 0%nat ltac:(cbn; lia)). vm_compute in Hc. discriminate.
Qed.

Lemma C38_round_trip_proof :
(* what is written is read back, character by character, for every 0/1 matrix without zero row or column; no other file changes *)
  forall (H : arr2) (path : string) (fs : fsys), binary H -> (1 <= length (a_rows H))%nat -> (1 <= a_cols H)%nat -> Z.of_nat (length (a_rows H)) < 2 ^ 31 -> Z.of_nat (a_cols H) < 2 ^ 31 ->
    no_zero_row H -> no_zero_column H -> lookup path fs = None ->
    exists (fs' : fsys) (p : ldpc), write_ldpc_params H path fs = (fs', Ok tt) /\ (forall q, q <> path -> lookup q fs' = lookup q fs) /\
      get_ldpc_code_params path false fs' = Ok p /\ describes p H /\ describes_columns p H /\ maps_inverse p /\
      (* the matrix built from the dictionary is the one that was written *)
      p_matrix (fst (build_matrix p)) = Some H /\
      get_ldpc_code_params path true fs' = match snd (build_matrix p) with Ok _ => Ok (fst (build_matrix p)) | Err e => Err e end.
Proof.
  intros H path fs HB Hm Hn Hm32 Hn32 HR HC HL. destruct (file_ok H HB Hm Hn Hm32 Hn32 HR HC) as (t & cm & vm & Et & Ep & Gc & Gv).
  exists ((path, t) :: fs), (result H cm vm). unfold write_ldpc_params. rewrite HL, Et. split; [reflexivity|].
  split; [intros q Hq; cbn [lookup]; destruct (String.eqb_spec q path); [contradiction|reflexivity]|].
  unfold get_ldpc_code_params. cbn [lookup]. rewrite String.eqb_refl, Ep. cbn [bind].
  pose proof (result_describes H HB Hm Hn cm vm) as HD. split; [reflexivity|]. split; [exact HD|]. split; [apply result_columns; assumption|]. split; [apply result_maps; assumption|]. split.
  - unfold build_matrix. rewrite (parity_rows_ok _ H HD). assert (EH : {| a_cols := n_vnodes (result H cm vm); a_rows := a_rows H |} = H) by (destruct H; reflexivity).
    destruct (negb _); [cbn [fst set_matrix p_matrix]; rewrite EH; reflexivity|]. destruct (inv_matrix _); cbn [fst set_gen set_matrix p_matrix]; rewrite EH; reflexivity.
  - destruct (build_matrix (result H cm vm)) as [p' r]. cbn [fst snd]. destruct r; reflexivity.
Qed.

Lemma C38_numbers_proof :
(* the numbers of a design file may be signed and surrounded by any ASCII white space *)
  forall (n : nat) (before after : text), let blank := Forall (fun c => In c [" "; "009"; "010"; "011"; "012"; "013"; "028"; "029"; "030"; "031"]%char) in blank before -> blank after ->
    py_int (before ++ fmt_nat n ++ after) = Ok (Z.of_nat n) /\ py_int (before ++ ("+"%char :: fmt_nat n) ++ after) = Ok (Z.of_nat n) /\ py_int (before ++ ("-"%char :: fmt_nat n) ++ after) = Ok (- Z.of_nat n) /\ py_int before = Err ValueError.
Proof.
  intros n ws ws' blank H1 H2. assert (B : forall l, blank l -> Forall (fun c => is_space c = true) l). { intros l Hl. unfold blank in Hl. eapply Forall_impl; [|exact Hl]. intros c Hc. cbv beta in Hc. unfold is_space. apply existsb_exists. exists c. split; [exact Hc|apply Ascii.eqb_refl]. }
  destruct (py_int_around n ws ws' (B _ H1) (B _ H2)) as (A1 & A2 & A3). repeat (split; [assumption|]). unfold py_int, strip. rewrite <- (app_nil_r ws), lstrip_spaces by (apply B, H1). reflexivity.
Qed.

Lemma C38_numbers_only_proof :
(* nothing else is accepted: a text (without "_") is a number only if it is a nonempty sequence of digits, possibly signed and
     surrounded by white space.  A sign alone, two signs, a letter or a blank inside a number raise ValueError *)
  forall (s : text), ~ In "_"%char s -> let blank := Forall (fun c => In c [" "; "009"; "010"; "011"; "012"; "013"; "028"; "029"; "030"; "031"]%char) in
    (exists z, py_int s = Ok z /\ exists before sign ds after, s = before ++ sign ++ ds ++ after /\ blank before /\ blank after /\ In sign [[]; ["-"%char]; ["+"%char]] /\ ds <> [] /\ Forall (fun c => In c ["0"; "1"; "2"; "3"; "4"; "5"; "6"; "7"; "8"; "9"]%char) ds) \/
    py_int s = Err ValueError.
Proof.
  intros s _ blank. assert (B : forall c, is_space c = true -> In c [" "; "009"; "010"; "011"; "012"; "013"; "028"; "029"; "030"; "031"]%char). { intros c H. unfold is_space in H. apply existsb_exists in H. destruct H as (x & Hx & E). apply Ascii.eqb_eq in E. subst x. exact Hx. }
  assert (L : forall l, exists b, l = b ++ lstrip l /\ blank b). { induction l as [|c l (b & E & Hb)]; [exists []; split; [reflexivity|constructor]|]. cbn [lstrip]. destruct (is_space c) eqn:Q; [|exists []; split; [reflexivity|constructor]]. exists (c :: b). split; [cbn; f_equal; exact E|constructor; [apply B, Q|exact Hb]]. }
  assert (Sx : exists before after, s = before ++ strip s ++ after /\ blank before /\ blank after).
  { destruct (L s) as (b & E & Hb). destruct (L (rev (lstrip s))) as (a & Ea & Ha). exists b, (rev a). split; [|split; [exact Hb|apply Forall_rev, Ha]]. unfold strip. rewrite <- rev_app_distr, <- Ea, rev_involutive. exact E. }
  assert (D : forall l d, digits l = Some d -> Forall (fun c => In c ["0"; "1"; "2"; "3"; "4"; "5"; "6"; "7"; "8"; "9"]%char) l).
  { induction l as [|c l IH]; intros d H; [constructor|]. cbn [digits] in H. destruct (digits l) as [d'|]; [|discriminate]. constructor; [|apply (IH d' eq_refl)].
    repeat match type of H with context [Ascii.eqb c ?x] => destruct (Ascii.eqb c x) eqn:?; [match goal with Q : Ascii.eqb _ _ = true |- _ => apply Ascii.eqb_eq in Q; subst c end; clear; cbn; tauto|] end. discriminate H. }
  assert (N : forall l, (exists z, py_nat l = Ok z /\ l <> [] /\ Forall (fun c => In c ["0"; "1"; "2"; "3"; "4"; "5"; "6"; "7"; "8"; "9"]%char) l) \/ py_nat l = Err ValueError).
  { intros [|c l]; [right; reflexivity|]. unfold py_nat. destruct (digits (c :: l)) as [d|] eqn:Q; [left; eexists; split; [reflexivity|]; split; [discriminate|apply (D _ d Q)]|right; reflexivity]. }
  destruct Sx as (before & after & E & Hb & Ha). unfold py_int. destruct (strip s) as [|c t] eqn:Q; [right; reflexivity|].
  assert (F : forall z sign l, c :: t = sign ++ l -> In sign [[]; ["-"%char]; ["+"%char]] -> l <> [] -> Forall (fun c => In c ["0"; "1"; "2"; "3"; "4"; "5"; "6"; "7"; "8"; "9"]%char) l ->
    exists z', Ok (A := Z) z = Ok z' /\ exists before sign ds after, s = before ++ sign ++ ds ++ after /\ blank before /\ blank after /\ In sign [[]; ["-"%char]; ["+"%char]] /\ ds <> [] /\ Forall (fun c => In c ["0"; "1"; "2"; "3"; "4"; "5"; "6"; "7"; "8"; "9"]%char) ds).
  { intros z sign l El Hs Hl Hd. exists z. split; [reflexivity|]. exists before, sign, l, after. rewrite E, El, <- app_assoc. auto 10. }
  destruct (Ascii.eqb c "-") eqn:Qm; [apply Ascii.eqb_eq in Qm; subst c|destruct (Ascii.eqb c "+") eqn:Qp; [apply Ascii.eqb_eq in Qp; subst c|]].
  - destruct (N t) as [(z & Z1 & Z2 & Z3)|Z1]; rewrite Z1; [left|right; reflexivity]. cbn [bind]. apply (F (- z) ["-"%char] t); cbn; auto.
  - destruct (N t) as [(z & Z1 & Z2 & Z3)|Z1]; rewrite Z1; [left|right; reflexivity]. apply (F z ["+"%char] t); cbn; auto.
  - destruct (N (c :: t)) as [(z & Z1 & Z2 & Z3)|Z1]; rewrite Z1; [left|right; reflexivity]. apply (F z [] (c :: t)); cbn; auto.
Qed.

Lemma C38_no_overwrite_proof :
forall (H : arr2) (path : string) (fs : fsys) (contents : text), lookup path fs = Some contents -> write_ldpc_params H path fs = (fs, Err FileExistsError).
Proof.
  intros H path fs c E. unfold write_ldpc_params. rewrite E. reflexivity.
Qed.

Lemma C38_zero_line_proof :
(* a zero row or column: IndexError, and a truncated file stays behind, so that a second attempt raises FileExistsError *)
  forall (H : arr2) (path : string) (fs : fsys), binary H -> (1 <= length (a_rows H))%nat -> (1 <= a_cols H)%nat -> ~ (no_zero_row H /\ no_zero_column H) -> lookup path fs = None ->
    exists (fs' : fsys) (contents : text), write_ldpc_params H path fs = (fs', Err IndexError) /\ lookup path fs' = Some contents /\
      forall H' : arr2, write_ldpc_params H' path fs' = (fs', Err FileExistsError).
Proof.
  intros H path fs HB Hm Hn HZ HL. assert (E : exists t, ldpc_text H = (t, Some IndexError)).
  { unfold ldpc_text. rewrite (rows_deg H HB), (cols_deg H HB). rewrite !max_width; [|intros E; pose proof (rowsN_length H) as Q; rewrite E in Q; cbn in Q; lia|intros E; pose proof (colsN_length H) as Q; rewrite E in Q; cbn in Q; lia].
    destruct (node_lines (columns H)) as [tv [e|]] eqn:Ev.
    - assert (X : Some e = Some IndexError \/ Forall (fun l => nonzero l <> []) (columns H)).
      { destruct (Exists_dec (fun l => nonzero l = []) (columns H)) as [HE|HN]; [intros l; destruct (nonzero l); [left; reflexivity|right; discriminate]| |].
        - left. rewrite <- (node_lines_err _ HE), Ev. reflexivity.
        - right. apply Forall_Exists_neg in HN. exact HN. }
      destruct X as [X|X]; [injection X as ->; eexists; reflexivity|]. destruct (node_lines_ok _ X) as (t & Et & _). rewrite Et in Ev. discriminate.
    - destruct (node_lines (a_rows H)) as [tc [e|]] eqn:Ec.
      + assert (X : Some e = Some IndexError \/ Forall (fun l => nonzero l <> []) (a_rows H)).
        { destruct (Exists_dec (fun l => nonzero l = []) (a_rows H)) as [HE|HN]; [intros l; destruct (nonzero l); [left; reflexivity|right; discriminate]| |].
          - left. rewrite <- (node_lines_err _ HE), Ec. reflexivity.
          - right. apply Forall_Exists_neg in HN. exact HN. }
        destruct X as [X|X]; [injection X as ->; eexists; reflexivity|]. destruct (node_lines_ok _ X) as (t & Et & _). rewrite Et in Ec. discriminate.
      + exfalso. apply HZ. split.
        * intros i Hi. destruct (nonzero (nth i (a_rows H) [])) as [|j l] eqn:En.
          -- exfalso. assert (HE : Exists (fun l => nonzero l = []) (a_rows H)) by (apply Exists_exists; exists (nth i (a_rows H) []); split; [apply nth_In; exact Hi|exact En]). apply node_lines_err in HE. rewrite Ec in HE. discriminate.
          -- assert (Hj : In j (nonzero (nth i (a_rows H) []))) by (rewrite En; left; reflexivity). apply nonzero_In in Hj. rewrite (row_length H HB i Hi) in Hj. exists j. exact Hj.
        * intros j Hj. destruct (nonzero (column j (a_rows H))) as [|i l] eqn:En.
          -- exfalso. assert (HE : Exists (fun l => nonzero l = []) (columns H)) by (apply Exists_exists; exists (column j (a_rows H)); split; [unfold columns; apply (in_map (fun j => column j (a_rows H))); apply in_seq; lia|exact En]). apply node_lines_err in HE. rewrite Ev in HE. discriminate.
          -- assert (Hi : In i (nonzero (column j (a_rows H)))) by (rewrite En; left; reflexivity). apply nonzero_In in Hi. rewrite column_length in Hi. destruct Hi as [Hi Hne]. exists i. split; [exact Hi|]. rewrite column_entry in Hne by exact Hi. exact Hne. }
  destruct E as [t E]. exists ((path, t) :: fs), t. unfold write_ldpc_params. rewrite HL, E. split; [reflexivity|]. cbn [lookup]. rewrite String.eqb_refl. split; reflexivity.
Qed.

Lemma C39_codeword_proof :
(* for every interpretation of the arithmetic: a word whose hard decisions are codewords is returned as it is, whatever
     the algorithm (even an unknown name) and the iteration count; LLRs are returned clipped *)
  forall (o : numops) (p : ldpc) (H : arr2) (a : algorithm) (n_iters b : nat) (llr : list (num o)),
    binary H -> p_matrix p = Some H -> n_vnodes p = a_cols H -> (1 <= a_cols H)%nat -> (1 <= b)%nat -> length llr = (b * a_cols H)%nat ->
    let clipped := map (n_clip o) llr in
    Forall (fun block => satisfies H (map (fun x => Z.b2z (n_signbit o x)) block)) (chunks (a_cols H) b clipped) ->
    ldpc_bp_decode o llr p a n_iters = (clipped, p, Ok (map (fun block => (map (n_signbit o) block, block)) (chunks (a_cols H) b clipped))).
Proof.
  intros o p H a it b llr HB HM Hn Hc Hb Hl clipped HF. rewrite (decode_ready o llr p H a it b HM Hn Hc Hb Hl). fold clipped. f_equal. apply mapM_Ok. intros block Hin. unfold decode_block. apply iterate_codeword.
  apply checks_ok; [exact HB|]. rewrite Forall_forall in HF. specialize (HF block Hin). unfold word. rewrite map_map. exact HF.
Qed.

Lemma C39_stops_on_codewords_proof :
(* a decoder output that is a codeword is final: more iterations return exactly the same word and LLRs *)
  forall (o : numops) (p : ldpc) (H : arr2) (a : algorithm) (n N b : nat) (llr : list (num o)) (out : list (list bool * list (num o))),
    binary H -> p_matrix p = Some H -> n_vnodes p = a_cols H -> (1 <= a_cols H)%nat -> (1 <= b)%nat -> length llr = (b * a_cols H)%nat -> (n <= N)%nat ->
    snd (ldpc_bp_decode o llr p a n) = Ok out -> Forall (fun d => satisfies H (map Z.b2z (fst d))) out ->
    snd (ldpc_bp_decode o llr p a N) = Ok out.
Proof.
  intros o p H a n N b llr out HB HM Hn Hc Hb Hl HN E HF. rewrite (decode_ready o llr p H a n b HM Hn Hc Hb Hl) in E. rewrite (decode_ready o llr p H a N b HM Hn Hc Hb Hl). cbn [snd] in *.
  revert out E HF. induction (chunks (a_cols H) b (map (n_clip o) llr)) as [|x l IH]; intros out E HF; cbn [mapM] in E |- *; [exact E|].
  destruct (decode_block o H a n x) as [[d ou]|e] eqn:Ed; [|discriminate]. cbn [bind] in E. destruct (mapM (decode_block o H a n) l) as [r|e]; [|discriminate]. cbn [bind] in E. injection E as <-.
  inversion HF as [|y l0 H1 H2]; subst. cbn [fst] in H1. unfold decode_block in *. rewrite (iterate_stable o H a x n N _ _ _ d ou Ed) by (try exact HN; apply checks_ok; assumption). cbn [bind]. rewrite (IH r eq_refl H2). reflexivity.
Qed.

Lemma C39_decisions_proof :
(* decisions are the signs of the returned LLRs, for every block *)
  forall (o : numops) (llr : list (num o)) (p : ldpc) (a : algorithm) (n : nat) (out : list (list bool * list (num o))),
    snd (ldpc_bp_decode o llr p a n) = Ok out -> Forall (fun d => fst d = map (n_signbit o) (snd d)) out.
Proof.
  intros o llr p a n out E. unfold ldpc_bp_decode in E. destruct (match p_matrix p with Some _ => (p, Ok tt) | None => build_matrix p end) as [p' r]. cbn [snd] in E. destruct r; [|discriminate]. cbn [bind] in E.
  destruct (p_matrix p') as [H|]; [|discriminate]. destruct (n_vnodes p =? 0)%nat; [discriminate|]. destruct (negb _ || _)%bool; [discriminate|].
  revert out E. induction (chunks _ _ _) as [|x l IH]; intros out E; cbn [mapM] in E; [injection E as <-; constructor|].
  destruct (decode_block o H a n x) as [[d ou]|e] eqn:Ed; [|discriminate]. cbn [bind] in E. destruct (mapM (decode_block o H a n) l) as [rr|e]; [|discriminate]. injection E as <-. constructor; [|apply IH; reflexivity].
  cbn [fst snd]. exact (iterate_decisions o H a x n _ _ _ _ _ eq_refl Ed).
Qed.

Lemma C39_clips_in_place_proof :
(* the caller's array is clipped, even when the call raises *)
  forall (o : numops) (llr : list (num o)) (p : ldpc) (a : algorithm) (n : nat), fst (fst (ldpc_bp_decode o llr p a n)) = map (n_clip o) llr.
Proof.
  intros o llr p a n. unfold ldpc_bp_decode. destruct (match p_matrix p with Some _ => (p, Ok tt) | None => build_matrix p end) as [p' r]. reflexivity.
Qed.

Lemma C39_errors_proof :
(* an unknown algorithm name is only reported when an iteration is needed; min-sum cannot treat checks of degree one *)
  forall (o : numops) (p : ldpc) (H : arr2) (n : nat) (llr : list (num o)),
    binary H -> p_matrix p = Some H -> n_vnodes p = a_cols H -> (1 <= a_cols H)%nat -> length llr = a_cols H ->
    ~ satisfies H (map (fun x => Z.b2z (n_signbit o (n_clip o x))) llr) ->
    snd (ldpc_bp_decode o llr p OtherName (S n)) = Err NameError /\
    (Exists (fun r => length (nonzero r) = 1%nat) (a_rows H) -> snd (ldpc_bp_decode o llr p MSA (S n)) = Err ValueError).
Proof.
  intros o p H n llr HB HM Hn Hc Hl HS. assert (Hl' : length llr = (1 * a_cols H)%nat) by lia.
  rewrite !(decode_ready o llr p H _ _ 1 HM Hn Hc ltac:(lia) Hl'). cbn [snd chunks mapM].
  assert (Ef : firstn (a_cols H) (map (n_clip o) llr) = map (n_clip o) llr) by (apply firstn_all2; rewrite map_length; lia). rewrite Ef.
  assert (HC : checks H (map (n_signbit o) (map (n_clip o) llr)) = false).
  { apply Bool.not_true_is_false. intros Ht. apply HS. apply checks_ok in Ht; [|exact HB]. unfold word in Ht. rewrite !map_map in Ht. exact Ht. }
  unfold decode_block. rewrite iterate_name by exact HC. split; [reflexivity|]. intros HE. rewrite msa_degree_one by assumption. reflexivity.
Qed.

Lemma C39_belief_propagation_proof :
(* over the reals, one block: the decoder runs textbook belief propagation until the hard decisions form a codeword or the
     iterations are used up.  Min-sum needs checks of degree two at least; sum-product divides by tanh of the messages, so
     no message may be zero.  [spa_rule] is the exact log-likelihood ratio of the parity of the other bits. *)
  forall (p : ldpc) (H : arr2) (a : algorithm) (N : nat) (llr : list R),
    binary H -> p_matrix p = Some H -> n_vnodes p = a_cols H -> (1 <= a_cols H)%nat -> length llr = a_cols H ->
    let L := fun v => clip500 (nth v llr 0%R) in
    let rule := match a with SPA => spa_rule | _ => msa_rule end in
    (a = MSA /\ (forall c, (c < length (a_rows H))%nat -> (2 <= length (vars_of H c))%nat) \/
     a = SPA /\ (forall t c v, (t < N)%nat -> (c < length (a_rows H))%nat -> In v (vars_of H c) -> to_check H spa_rule L t c v <> 0%R)) ->
    exists T : nat, (T <= N)%nat /\
      snd (ldpc_bp_decode real_ops llr p a N) = Ok [(hard H rule L T, map (belief H rule L T) (seq 0 (a_cols H)))] /\
      (forall u, (u < T)%nat -> ~ satisfies H (map Z.b2z (hard H rule L u))) /\
      (T = N \/ satisfies H (map Z.b2z (hard H rule L T))).
Proof.
  intros p H a N llr HB HM Hn Hc Hl L rule HA. assert (Hl' : length llr = (1 * a_cols H)%nat) by lia.
  rewrite (decode_ready real_ops llr p H _ _ 1 HM Hn Hc ltac:(lia) Hl'). cbn [snd chunks mapM].
  assert (Ef : firstn (a_cols H) (map (n_clip real_ops) llr) = map clip500 llr) by (apply firstn_all2; rewrite map_length; lia). rewrite Ef.
  assert (EL : L = (fun v => nth v (map clip500 llr) 0%R)).
  { apply FunctionalExtensionality.functional_extensionality. intros v. unfold L. assert (E0 : clip500 0 = 0%R) by (unfold clip500; rewrite Rmin_right, Rmax_right by lra; reflexivity). rewrite <- E0 at 2. symmetry. apply map_nth. }
  assert (HU : forall t, (t < N)%nat -> check_update real_ops a (edge H (to_check H rule L t)) = Ok (edge H (to_var H rule (to_check H rule L t)))).
  { intros t Ht. unfold rule. destruct HA as [[-> HA]|[-> HA]]; [apply check_msa; exact HA|apply check_spa; intros c v Hc' Hv; apply HA; assumption]. }
  rewrite EL in *. destruct (decode_block_bp H HB a rule (map clip500 llr) N ltac:(rewrite map_length; exact Hl) HU) as (T & HT & E & H1 & H2). exists T. split; [exact HT|]. split; [|split; assumption].
  unfold num, real_ops at 1 in E. cbn [bind]. match goal with |- context [decode_block ?o ?h ?x ?y ?z] => replace (decode_block o h x y z) with (decode_block real_ops H a N (map clip500 llr)) by reflexivity end. rewrite E. reflexivity.
Qed.

Lemma C39_tanh_rule_proof :
(* the sum-product message 2 atanh (prod tanh (l / 2)) is the log-likelihood ratio of the parity of independent bits *)
  forall ls : list R, ls <> [] ->
    let d := fold_right Rmult 1%R (map (fun l => tanh (l / 2)) ls) in
    (-1 < d < 1)%R /\ ln ((1 + d) / (1 - d)) = ln (parity_prob ls 0 / parity_prob ls 1).
Proof.
  intros ls Hne d. destruct (parity_facts ls) as (H1 & H2 & H3 & _ & H5). specialize (H5 Hne). unfold prodR in H2. change (map (fun l => tanh (l * / 2))%R ls) with (map (fun l => tanh (l / 2))%R ls) in H2. fold d in H2.
  split; [lra|]. f_equal. rewrite <- H2. replace (1 + (parity_prob ls 0 - parity_prob ls 1))%R with (2 * parity_prob ls 0)%R by lra. replace (1 - (parity_prob ls 0 - parity_prob ls 1))%R with (2 * parity_prob ls 1)%R by lra. field. lra.
Qed.

Lemma C39_singular_code_proof :
(* with a singular systematic part the first call raises RuntimeError, the same call repeated decodes *)
  forall (o : numops) (p : ldpc) (H : arr2) (a : algorithm) (n : nat) (llr : list (num o)),
    describes p H -> p_matrix p = None -> (2 <= length (a_rows H) <= a_cols H)%nat -> singular H ->
    exists p' : ldpc, ldpc_bp_decode o llr p a n = (map (n_clip o) llr, p', Err RuntimeError) /\ p_matrix p' = Some H /\ n_vnodes p' = a_cols H.
Proof.
  intros o p H a n llr HD HM Hmn HS. exists (set_matrix p H). unfold ldpc_bp_decode. rewrite HM, (build_singular p H HD ltac:(lia) HS). split; [reflexivity|]. split; [reflexivity|]. destruct HD as (_ & Hn & _). exact Hn.
Qed.

Lemma C40_blocks_independent_proof :
(* decoding a concatenation of whole blocks is decoding its parts, exceptions included *)
  forall (o : numops) (p : ldpc) (H : arr2) (a : algorithm) (n b1 b2 : nat) (l1 l2 : list (num o)),
    p_matrix p = Some H -> n_vnodes p = a_cols H -> (1 <= a_cols H)%nat -> (1 <= b1)%nat -> (1 <= b2)%nat -> length l1 = (b1 * a_cols H)%nat -> length l2 = (b2 * a_cols H)%nat ->
    snd (ldpc_bp_decode o (l1 ++ l2) p a n) =
      (r1 <- snd (ldpc_bp_decode o l1 p a n) ;; r2 <- snd (ldpc_bp_decode o l2 p a n) ;; Ok (r1 ++ r2)) /\
    fst (ldpc_bp_decode o (l1 ++ l2) p a n) = (fst (fst (ldpc_bp_decode o l1 p a n)) ++ fst (fst (ldpc_bp_decode o l2 p a n)), p).
Proof.
  intros o p H a n b1 b2 l1 l2 HM Hn Hc H1 H2 Hl1 Hl2.
  rewrite (decode_ready o l1 p H a n b1 HM Hn Hc H1 Hl1), (decode_ready o l2 p H a n b2 HM Hn Hc H2 Hl2), (decode_ready o (l1 ++ l2) p H a n (b1 + b2) HM Hn Hc ltac:(lia) ltac:(rewrite app_length; lia)). cbn [fst snd].
  rewrite map_app. rewrite chunks_app by (rewrite map_length; exact Hl1). split; [apply mapM_app|reflexivity].
Qed.

Lemma C40_shapes_proof :
(* a length that is not a positive multiple of the block length is rejected *)
  forall (o : numops) (p : ldpc) (H : arr2) (a : algorithm) (n : nat) (llr : list (num o)),
    p_matrix p = Some H -> (1 <= n_vnodes p)%nat -> llr = [] \/ (length llr mod n_vnodes p <> 0)%nat -> snd (ldpc_bp_decode o llr p a n) = Err ValueError.
Proof.
  intros o p H a n llr HM Hn HL. unfold ldpc_bp_decode. rewrite HM. cbn [bind snd]. rewrite HM. replace (n_vnodes p =? 0)%nat with false by (symmetry; apply Nat.eqb_neq; lia). rewrite map_length.
  destruct HL as [-> |HL]; [cbn [length]; rewrite orb_true_r; reflexivity|]. apply Nat.eqb_neq in HL. rewrite HL. reflexivity.
Qed.

Lemma bp_last p H a t llr :
  binary H -> p_matrix p = Some H -> n_vnodes p = a_cols H -> (1 <= a_cols H)%nat -> length llr = a_cols H ->
  let L := fun v => clip500 (nth v llr 0%R) in
  let rule := match a with SPA => spa_rule | _ => msa_rule end in
  (a = MSA /\ (forall c, (c < length (a_rows H))%nat -> (2 <= length (vars_of H c))%nat) \/
   a = SPA /\ (forall u c v, (u < S t)%nat -> (c < length (a_rows H))%nat -> In v (vars_of H c) -> to_check H spa_rule L u c v <> 0%R)) ->
  exists T, snd (ldpc_bp_decode real_ops llr p a (S t)) = Ok [(hard H rule L T, map (belief H rule L T) (seq 0 (a_cols H)))] /\
    (T = S t \/ satisfies H (map Z.b2z (hard H rule L T)) /\ snd (ldpc_bp_decode real_ops llr p a t) = Ok [(hard H rule L T, map (belief H rule L T) (seq 0 (a_cols H)))]).
Proof.
  intros HB HM Hn Hc Hl L rule HA. destruct (C39_belief_propagation_proof p H a (S t) llr HB HM Hn Hc Hl HA) as (T & HT & E & H1 & H2). fold L rule in E, H1, H2. exists T. split; [exact E|].
  destruct (Nat.eq_dec T (S t)) as [->|Hne]; [left; reflexivity|]. right. destruct H2 as [H2|H2]; [contradiction|]. split; [exact H2|].
  destruct (C39_belief_propagation_proof p H a t llr HB HM Hn Hc Hl) as (T' & HT' & E' & H1' & H2').
  { destruct HA as [HA|[Ha HA]]; [left; exact HA|right; split; [exact Ha|]]. intros u c v Hu. apply HA. lia. }
  fold L rule in E', H1', H2'. rewrite E'. replace T' with T; [reflexivity|]. destruct (Nat.lt_trichotomy T T') as [Hlt|[-> |Hlt]]; [exfalso; exact (H1' T Hlt H2)|reflexivity|].
  exfalso. destruct H2' as [-> |H2']; [lia|]. exact (H1 T' Hlt H2').
Qed.

Lemma C67_sum_product_proof :
(* parity-check graph a tree, every check with two variables at least, no saturation, no zero message: when the t + 1
     iterations that reach the whole tree are used, the returned LLRs are the exact ones, computed over all codewords, and
     the decisions are bitwise maximum a posteriori; else an earlier iteration ended on a codeword *)
  forall (p : ldpc) (H : arr2) (t : nat) (llr : list R),
    binary H -> p_matrix p = Some H -> n_vnodes p = a_cols H -> (1 <= a_cols H)%nat -> length llr = a_cols H ->
    (forall c, (c < length (a_rows H))%nat -> (2 <= length (vars_of H c))%nat) -> tree H t -> (total Rabs llr <= 500)%R ->
    (forall u c v, (u <= t)%nat -> (c < length (a_rows H))%nat -> In v (vars_of H c) -> to_check H spa_rule (fun v => nth v llr 0%R) u c v <> 0%R) ->
    exists (word : list bool) (beliefs : list R), length word = a_cols H /\ length beliefs = a_cols H /\
      snd (ldpc_bp_decode real_ops llr p SPA (S t)) = Ok [(word, beliefs)] /\
      (satisfies H (map Z.b2z word) /\ snd (ldpc_bp_decode real_ops llr p SPA t) = Ok [(word, beliefs)] \/
       forall v, (v < a_cols H)%nat ->
         let P b := total (weight llr) (codewords H v b) in
         (0 < P 0%Z /\ 0 < P 1%Z /\ nth v beliefs 0 = ln (P 0%Z / P 1%Z) /\ (nth v word false = true <-> P 0%Z < P 1%Z))%R).
Proof.
  intros p H t llr HB HM Hn Hc Hl deg2 HT small HZ.
  assert (EL : (fun v => clip500 (nth v llr 0%R)) = (fun v => nth v llr 0%R)).
  { apply FunctionalExtensionality.functional_extensionality. intros v. apply clip500_id. eapply Rle_trans; [|exact small]. clear. revert v. induction llr as [|l llr IH]; intros [|v]; cbn [nth]; rewrite ?total_cons.
    - rewrite Rabs_R0, total_nil. lra.
    - rewrite Rabs_R0, total_nil. lra.
    - pose proof (total_Rabs_nonneg (fun u => nth u llr 0%R) (seq 0 (length llr))) as Hp. assert (E : total Rabs llr = total (fun u => Rabs (nth u llr 0%R)) (seq 0 (length llr))); [|rewrite E; lra].
      rewrite <- (total_map Rabs (fun u => nth u llr 0%R)). f_equal. apply (nth_ext _ _ 0%R 0%R); [rewrite map_length, seq_length; reflexivity|]. intros i Hi. rewrite (nth_map_lt (fun u => nth u llr 0%R) _ i 0%nat) by (rewrite seq_length; exact Hi). rewrite seq_nth by exact Hi. reflexivity.
    - specialize (IH v). pose proof (Rabs_pos l). lra. }
  destruct (bp_last p H SPA t llr HB HM Hn Hc Hl) as (T & E & HC).
  { right. split; [reflexivity|]. intros u c v Hu. rewrite EL. apply HZ. lia. }
  cbn [bp_last] in E, HC. cbv zeta in E, HC. rewrite EL in E, HC.
  eexists _, _. split; [|split; [|split; [exact E|]]]; [unfold hard; rewrite map_length, seq_length; reflexivity|rewrite map_length, seq_length; reflexivity|].
  destruct HC as [-> |HC]; [|left; exact HC]. right. intros v Hv P.
  destruct (spa_exact H llr t v HB Hl deg2 HT small Hv) as [P1 P0]. fold (P 0%Z) (P 1%Z) in P0, P1. set (be := belief H spa_rule (fun u => nth u llr 0%R) (S t)) in *.
  assert (P0p : (0 < P 0%Z)%R) by (rewrite P0; apply Rmult_lt_0_compat; [apply exp_pos|exact P1]).
  split; [exact P0p|]. split; [exact P1|]. rewrite (nth_map_lt be _ v 0%nat) by (rewrite seq_length; exact Hv). rewrite seq_nth by exact Hv. cbn [Nat.add]. split.
  - rewrite P0. unfold Rdiv. rewrite Rmult_assoc, Rinv_r, Rmult_1_r by lra. symmetry. apply ln_exp.
  - unfold hard. fold be. rewrite (nth_map_lt (fun v => negative (be v)) _ v 0%nat) by (rewrite seq_length; exact Hv). rewrite seq_nth by exact Hv. cbn [Nat.add]. unfold negative. rewrite P0. rewrite <- (Rmult_1_l (P 1%Z)) at 2. destruct (Rlt_dec (be v) 0) as [Hneg|Hneg].
    + split; [intros _|reflexivity]. apply Rmult_lt_compat_r; [exact P1|]. rewrite <- exp_0. apply exp_increasing. exact Hneg.
    + split; [discriminate|]. intros Hlt. exfalso. apply Rmult_lt_reg_r in Hlt; [|exact P1]. rewrite <- exp_0 in Hlt. apply exp_lt_inv in Hlt. lra.
Qed.

Lemma C67_min_sum_proof :
(* min-sum on a tree: every returned LLR is the least cost of the codewords with a 1 at that place minus the least cost
     of those with a 0; if one codeword is cheaper than all others, it is the one returned *)
  forall (p : ldpc) (H : arr2) (t : nat) (llr : list R),
    binary H -> p_matrix p = Some H -> n_vnodes p = a_cols H -> (1 <= a_cols H)%nat -> length llr = a_cols H ->
    (forall c, (c < length (a_rows H))%nat -> (2 <= length (vars_of H c))%nat) -> tree H t ->
    let ls := map clip500 llr in
    exists (word : list bool) (beliefs : list R), length word = a_cols H /\ length beliefs = a_cols H /\
      snd (ldpc_bp_decode real_ops llr p MSA (S t)) = Ok [(word, beliefs)] /\
      (satisfies H (map Z.b2z word) /\ snd (ldpc_bp_decode real_ops llr p MSA t) = Ok [(word, beliefs)] \/
       (forall v, (v < a_cols H)%nat -> exists c0 c1 : R,
          least_cost ls (codewords H v 0) c0 /\ least_cost ls (codewords H v 1) c1 /\ nth v beliefs 0%R = (c1 - c0)%R) /\
       (forall x : list Z, length x = a_cols H -> bits x -> satisfies H x ->
          (forall y : list Z, length y = a_cols H -> bits y -> satisfies H y -> y <> x -> (cost ls x < cost ls y)%R) ->
          map Z.b2z word = x)).
Proof.
  intros p H t llr HB HM Hn Hc Hl deg2 HT ls.
  assert (EL : (fun v => clip500 (nth v llr 0%R)) = (fun v => nth v ls 0%R)).
  { apply FunctionalExtensionality.functional_extensionality. intros v. assert (E0 : clip500 0 = 0%R) by (unfold clip500; rewrite Rmin_right, Rmax_right by lra; reflexivity). rewrite <- E0 at 2. symmetry. apply map_nth. }
  destruct (bp_last p H MSA t llr HB HM Hn Hc Hl) as (T & E & HC); [left; split; [reflexivity|exact deg2]|].
  cbv zeta in E, HC. rewrite EL in E, HC. set (be := fun u => belief H msa_rule (fun v => nth v ls 0%R) u) in *.
  eexists _, _. split; [|split; [|split; [exact E|]]]; [unfold hard; rewrite map_length, seq_length; reflexivity|rewrite map_length, seq_length; reflexivity|].
  destruct HC as [-> |HC]; [|left; exact HC]. right.
  assert (HX : forall v, (v < a_cols H)%nat -> exists c0 c1 : R, least_cost ls (codewords H v 0) c0 /\ least_cost ls (codewords H v 1) c1 /\ be (S t) v = (c1 - c0)%R).
  { intros v Hv. apply msa_exact; try assumption. unfold ls. rewrite map_length. exact Hl. }
  assert (EN : forall v, (v < a_cols H)%nat -> nth v (map (be (S t)) (seq 0 (a_cols H))) 0%R = be (S t) v) by (intros v Hv; rewrite (nth_map_lt (be (S t)) _ v 0%nat) by (rewrite seq_length; exact Hv); rewrite seq_nth by exact Hv; reflexivity).
  split; [intros v Hv; destruct (HX v Hv) as (c0 & c1 & X0 & X1 & X2); exists c0, c1; split; [exact X0|]; split; [exact X1|]; rewrite <- X2; apply EN; exact Hv|].
  intros x Hx Bx Sx Mx. apply (nth_ext _ _ 0 0); [unfold hard; rewrite !map_length, seq_length; lia|]. intros v Hv. unfold hard in Hv. rewrite !map_length, seq_length in Hv.
  unfold hard. fold be. rewrite map_map. rewrite (nth_map_lt (fun v => Z.b2z (negative (be (S t) v))) _ v 0%nat) by (rewrite seq_length; exact Hv). rewrite seq_nth by exact Hv. cbn [Nat.add].
  destruct (HX v Hv) as (c0 & c1 & ((y0 & I0 & Y0) & M0) & ((y1 & I1 & Y1) & M1) & ->). apply codewords_In in I0. apply codewords_In in I1. destruct I0 as (L0 & B0 & S0 & N0). destruct I1 as (L1 & B1 & S1 & N1).
  assert (Bv : is_bit (nth v x 0)) by (apply bits_nth; exact Bx). unfold negative. destruct Bv as [Ev|Ev]; rewrite Ev.
  - assert (Hm : (c0 <= cost ls x)%R) by (apply M0, codewords_In; repeat split; assumption). assert (Hm1 : (cost ls x < cost ls y1)%R) by (apply Mx; try assumption; intros ->; congruence). destruct (Rlt_dec (c1 - c0) 0); [lra|reflexivity].
  - assert (Hm : (c1 <= cost ls x)%R) by (apply M1, codewords_In; repeat split; assumption). assert (Hm1 : (cost ls x < cost ls y0)%R) by (apply Mx; try assumption; intros ->; congruence). destruct (Rlt_dec (c1 - c0) 0); [reflexivity|lra].
Qed.

Lemma bp_same_stop H r1 r2 (L1 L2 : nat -> R) N T1 T2 : (T1 <= N)%nat -> (T2 <= N)%nat ->
  (forall u, (u <= T1)%nat -> satisfies H (map Z.b2z (hard H r2 L2 u)) <-> satisfies H (map Z.b2z (hard H r1 L1 u))) ->
  (forall u, (u < T1)%nat -> ~ satisfies H (map Z.b2z (hard H r1 L1 u))) -> (T1 = N \/ satisfies H (map Z.b2z (hard H r1 L1 T1))) ->
  (forall u, (u < T2)%nat -> ~ satisfies H (map Z.b2z (hard H r2 L2 u))) -> (T2 = N \/ satisfies H (map Z.b2z (hard H r2 L2 T2))) -> T2 = T1.
Proof.
  intros HN1 HN2 HE H1 H1' H2 H2'. destruct (Nat.lt_trichotomy T2 T1) as [Hlt|[E|Hlt]]; [|exact E|]; exfalso.
  - destruct H2' as [->|H2']; [lia|]. apply (H1 T2 Hlt). apply HE; [lia|exact H2'].
  - destruct H1' as [->|H1']; [lia|]. apply (H2 T1 Hlt). apply HE; [lia|exact H1'].
Qed.
Lemma satisfies_flip H x (w w' : list Z) : binary H -> satisfies H x -> (forall v, (v < a_cols H)%nat -> (nth v w' 0 mod 2 = (nth v x 0 + nth v w 0) mod 2)%Z) -> satisfies H w' <-> satisfies H w.
Proof.
  intros HB Hx HE.
  assert (G : forall i, (sumto (a_cols H) (fun j => hij (a_rows H) i j * nth j w' 0) mod 2 = (sumto (a_cols H) (fun j => hij (a_rows H) i j * nth j x 0) + sumto (a_cols H) (fun j => hij (a_rows H) i j * nth j w 0)) mod 2)%Z).
  { intros i. unfold sumto. assert (HI : forall v, In v (seq 0 (a_cols H)) -> (v < a_cols H)%nat) by (intros v Hv; apply in_seq in Hv; lia). revert HI. generalize (seq 0 (a_cols H)). intros l HI. induction l as [|v l IH]; [reflexivity|]. cbn [map]. rewrite !Zsum_cons.
    specialize (IH ltac:(intros u Hu; apply HI; right; exact Hu)). specialize (HE v (HI v (or_introl eq_refl))).
    rewrite Zplus_mod, IH, <- Zplus_mod. rewrite <- Zplus_mod_idemp_l, <- Zmult_mod_idemp_r, HE, Zmult_mod_idemp_r, Zplus_mod_idemp_l. f_equal. ring. }
  unfold satisfies. split; intros HS i Hi; specialize (HS i Hi); specialize (Hx i Hi); specialize (G i); rewrite Zplus_mod, Hx in G; rewrite Z.add_0_l, Zmod_mod in G; congruence.
Qed.
Lemma map_combine_seq {A B C} (f : A * B -> C) (x : list A) (l : list B) da db n : length x = n -> length l = n -> map f (combine x l) = map (fun v => f (nth v x da, nth v l db)) (seq 0 n).
Proof.
  intros Hx Hl. apply (nth_ext _ _ (f (da, db)) (f (da, db))); [rewrite !map_length, combine_length, seq_length; lia|]. intros i Hi. rewrite map_length, combine_length in Hi.
  rewrite map_nth, combine_nth by lia. rewrite (nth_map_lt (fun v => f (nth v x da, nth v l db)) _ i 0%nat) by (rewrite seq_length; lia). rewrite seq_nth by lia. reflexivity.
Qed.

Lemma C71_codeword_symmetry_proof :
(* inverting the received values at the ones of a codeword x inverts the decoder's output there: the quality of the
     decoder does not depend on the transmitted codeword.  The iterations of the first decoding must not meet an LLR of
     exactly zero (whose decision, 0, cannot be inverted). *)
  forall (p : ldpc) (H : arr2) (a : algorithm) (N : nat) (llr : list R) (x : list Z),
    binary H -> p_matrix p = Some H -> n_vnodes p = a_cols H -> (1 <= a_cols H)%nat -> length llr = a_cols H ->
    length x = a_cols H -> bits x -> satisfies H x ->
    (a = MSA /\ (forall c, (c < length (a_rows H))%nat -> (2 <= length (vars_of H c))%nat) \/
     a = SPA /\ (forall t c v, (t < N)%nat -> (c < length (a_rows H))%nat -> In v (vars_of H c) -> to_check H spa_rule (fun v => clip500 (nth v llr 0%R)) t c v <> 0%R)) ->
    (forall (k : nat) (w : list bool) (b : list R), (k <= N)%nat -> snd (ldpc_bp_decode real_ops llr p a k) = Ok [(w, b)] -> Forall (fun l => l <> 0%R) b) ->
    exists (word : list bool) (beliefs : list R),
      snd (ldpc_bp_decode real_ops llr p a N) = Ok [(word, beliefs)] /\
      snd (ldpc_bp_decode real_ops (flip_signs x llr) p a N) = Ok [(flip_bits x word, flip_signs x beliefs)].
Proof.
  intros p H a N llr x HB HM Hn Hc Hl Hx Bx Sx HA HZ. set (L := fun v => clip500 (nth v llr 0%R)) in *. set (rule := match a with SPA => spa_rule | _ => msa_rule end).
  set (s := fun v => sgn (nth v x 0%Z)).
  assert (Hs : forall v, pm (s v)) by (intros v; apply sgn_pm, bits_nth; exact Bx).
  assert (Hrule : forall (q : nat -> R) l, rule (map (fun v => s v * q v)%R l) = (prodR (map s l) * rule (map q l))%R).
  { intros q l. unfold rule. destruct a; [apply spa_pm|apply msa_pm|apply msa_pm]; intros v _; apply Hs. }
  assert (HP : forall c, (c < length (a_rows H))%nat -> prodR (map s (vars_of H c)) = 1%R).
  { intros c Hcm. unfold s. rewrite (prod_sgn (fun v => nth v x 0%Z)) by (intros v _; apply bits_nth; exact Bx). specialize (Sx c Hcm). rewrite sumto_vars in Sx by assumption. rewrite Sx. reflexivity. }
  assert (EF : forall l : list R, length l = a_cols H -> flip_signs x l = map (fun v => s v * nth v l 0)%R (seq 0 (a_cols H))).
  { intros l Hll. unfold flip_signs. rewrite (map_combine_seq _ x l 0%Z 0%R (a_cols H) Hx Hll). apply map_ext. intros v. cbn [fst snd]. unfold s, sgn. destruct (bits_nth x v Bx) as [E|E]; rewrite E; [change (0 =? 1)%Z with false|change (1 =? 1)%Z with true]; cbv iota; lra. }
  set (L' := fun v => clip500 (nth v (flip_signs x llr) 0%R)).
  assert (HL' : forall v, L' v = (s v * L v)%R).
  { intros v. unfold L', L. rewrite <- clip_pm by apply Hs. f_equal. rewrite EF by exact Hl. destruct (Nat.lt_ge_cases v (a_cols H)) as [Hv|Hv].
    - apply (nth_map_seq (fun v => s v * nth v llr 0)%R). exact Hv.
    - rewrite !nth_overflow by (rewrite ?map_length, ?seq_length; lia). lra. }
  assert (HA' : a = MSA /\ (forall c, (c < length (a_rows H))%nat -> (2 <= length (vars_of H c))%nat) \/
     a = SPA /\ (forall t c v, (t < N)%nat -> (c < length (a_rows H))%nat -> In v (vars_of H c) -> to_check H spa_rule L' t c v <> 0%R)).
  { destruct HA as [HA|[Ea HA]]; [left; exact HA|right]. split; [exact Ea|]. intros t c v Ht Hcm Hv. subst a. cbn in rule. fold rule. rewrite (to_check_sym H rule s Hrule Hs HP L L' HL' t c v Hcm Hv). specialize (HA t c v Ht Hcm Hv). fold rule in HA.
    destruct (Hs v) as [->| ->]; lra. }
  assert (HlF : length (flip_signs x llr) = a_cols H) by (rewrite EF by exact Hl; rewrite map_length, seq_length; reflexivity).
  destruct (C39_belief_propagation_proof p H a N llr HB HM Hn Hc Hl HA) as (T & HT & E & H1 & H2). fold L rule in E, H1, H2.
  destruct (C39_belief_propagation_proof p H a N (flip_signs x llr) HB HM Hn Hc HlF HA') as (T' & HT' & E' & H1' & H2'). fold L' rule in E', H1', H2'.
  assert (HBZ : forall u v, (u <= T)%nat -> (v < a_cols H)%nat -> belief H rule L u v <> 0%R).
  { intros u v Hu Hv. destruct (C39_belief_propagation_proof p H a u llr HB HM Hn Hc Hl) as (Tu & HTu & Eu & H1u & H2u).
    { destruct HA as [HA|[Ea HA]]; [left; exact HA|right]. split; [exact Ea|]. intros t c w Ht. apply HA. lia. }
    fold L rule in Eu, H1u, H2u. assert (Tu = u) as ->.
    { destruct H2u as [H2u|H2u]; [exact H2u|]. destruct (Nat.eq_dec Tu u) as [|Hne]; [assumption|]. exfalso. apply (H1 Tu); [lia|exact H2u]. }
    specialize (HZ u _ _ ltac:(lia) Eu). rewrite Forall_forall in HZ. apply HZ. apply in_map, in_seq. lia. }
  assert (HH : forall u, (u <= T)%nat -> hard H rule L' u = flip_bits x (hard H rule L u)).
  { intros u Hu. unfold flip_bits. assert (Hlh : length (hard H rule L u) = a_cols H) by (unfold hard; rewrite map_length, seq_length; reflexivity). rewrite (map_combine_seq _ x _ 0%Z false (a_cols H) Hx Hlh). unfold hard. apply map_ext_in. intros v Hv. apply in_seq in Hv. cbn [fst snd].
    rewrite (belief_sym H rule s Hrule Hs HP L L' HL' u v) by lia. rewrite (nth_map_seq (fun v => negative (belief H rule L u v))) by lia. pose proof (HBZ u v Hu ltac:(lia)) as Hz. set (y := belief H rule L u v) in *. unfold s, sgn, negative.
    destruct (bits_nth x v Bx) as [Eb|Eb]; rewrite Eb; [change (0 =? 1)%Z with false|change (1 =? 1)%Z with true]; repeat match goal with |- context [Rlt_dec ?p ?q] => destruct (Rlt_dec p q) end; try reflexivity; exfalso; lra. }
  assert (HS : forall u, (u <= T)%nat -> satisfies H (map Z.b2z (hard H rule L' u)) <-> satisfies H (map Z.b2z (hard H rule L u))).
  { intros u Hu. apply (satisfies_flip H x _ _ HB Sx). intros v Hv. rewrite HH by exact Hu. assert (Hlh : length (hard H rule L u) = a_cols H) by (unfold hard; rewrite map_length, seq_length; reflexivity). unfold flip_bits. rewrite (map_combine_seq _ x _ 0%Z false (a_cols H) Hx Hlh). rewrite map_map.
    rewrite (nth_map_seq (fun v => Z.b2z (xorb (fst (nth v x 0%Z, nth v (hard H rule L u) false) =? 1)%Z (snd (nth v x 0%Z, nth v (hard H rule L u) false))))) by exact Hv. cbn [fst snd]. rewrite (nth_map_lt Z.b2z _ v false 0%Z) by lia.
    destruct (bits_nth x v Bx) as [Eb|Eb]; rewrite Eb; destruct (nth v (hard H rule L u) false); reflexivity. }
  pose proof (bp_same_stop H rule rule L L' N T T' HT HT' HS H1 H2 H1' H2') as ET. subst T'.
  exists (hard H rule L T), (map (belief H rule L T) (seq 0 (a_cols H))). split; [exact E|]. rewrite E', HH by lia. do 3 f_equal.
  rewrite EF by (rewrite map_length, seq_length; reflexivity). apply map_ext_in. intros v Hv. apply in_seq in Hv. rewrite (belief_sym H rule s Hrule Hs HP L L' HL' T v) by lia. rewrite (nth_map_seq (belief H rule L T)) by lia. reflexivity.
Qed.

Lemma C71_min_sum_scale_proof :
(* min-sum needs no estimate of the noise: LLRs multiplied by a positive factor, both below the clipping level, give the
     same word, and LLRs multiplied by the same factor *)
  forall (p : ldpc) (H : arr2) (N : nat) (llr : list R) (k : R),
    binary H -> p_matrix p = Some H -> n_vnodes p = a_cols H -> (1 <= a_cols H)%nat -> length llr = a_cols H ->
    (forall c, (c < length (a_rows H))%nat -> (2 <= length (vars_of H c))%nat) ->
    (0 < k)%R -> Forall (fun l => Rabs l <= 500 /\ Rabs (k * l) <= 500)%R llr ->
    exists (word : list bool) (beliefs : list R),
      snd (ldpc_bp_decode real_ops llr p MSA N) = Ok [(word, beliefs)] /\
      snd (ldpc_bp_decode real_ops (map (fun l => k * l)%R llr) p MSA N) = Ok [(word, map (fun l => k * l)%R beliefs)].
Proof.
  intros p H N llr k HB HM Hn Hc Hl Hd Hk HC. set (L := fun v => clip500 (nth v llr 0%R)). set (L' := fun v => clip500 (nth v (map (fun l => k * l)%R llr) 0%R)).
  assert (HL' : forall v, L' v = (k * L v)%R).
  { intros v. unfold L', L. rewrite Forall_forall in HC. destruct (Nat.lt_ge_cases v (length llr)) as [Hv|Hv].
    - rewrite (nth_map_lt (fun l => k * l)%R llr v 0%R) by exact Hv. destruct (HC (nth v llr 0%R) (nth_In _ _ Hv)) as [B1 B2]. rewrite !clip500_id by assumption. reflexivity.
    - rewrite !nth_overflow by (rewrite ?map_length; lia). rewrite clip500_id by (rewrite Rabs_R0; lra). lra. }
  destruct (C39_belief_propagation_proof p H MSA N llr HB HM Hn Hc Hl (or_introl (conj eq_refl Hd))) as (T & HT & E & H1 & H2). fold L in E, H1, H2.
  destruct (C39_belief_propagation_proof p H MSA N (map (fun l => k * l)%R llr) HB HM Hn Hc ltac:(rewrite map_length; exact Hl) (or_introl (conj eq_refl Hd))) as (T' & HT' & E' & H1' & H2'). fold L' in E', H1', H2'.
  assert (ET : T' = T). { apply (bp_same_stop H msa_rule msa_rule L L' N T T' HT HT'); try assumption. intros u _. rewrite (hard_scale H k Hk L L' HL'). reflexivity. }
  subst T'. exists (hard H msa_rule L T), (map (belief H msa_rule L T) (seq 0 (a_cols H))). split; [exact E|]. rewrite E', (hard_scale H k Hk L L' HL'). do 3 f_equal. rewrite map_map. apply map_ext. intros v. apply (belief_scale H k Hk L L' HL').
Qed.

Section Signed.
  Variables (H : arr2) (x : list Z) (L : nat -> R).
  Hypotheses (HB : binary H) (Hx : length x = a_cols H) (Bx : bits x) (Sx : satisfies H x).
  Definition sg (v : nat) : R := sgn (nth v x 0%Z).
  Definition Lp (v : nat) : R := (sg v * L v)%R.
  Lemma sg_pm v : pm (sg v). Proof. apply sgn_pm, bits_nth, Bx. Qed.
  Lemma sg_cases v : (nth v x 0%Z = 0%Z /\ sg v = 1%R) \/ (nth v x 0%Z = 1%Z /\ sg v = (-1)%R).
  Proof. unfold sg, sgn. destruct (bits_nth x v Bx) as [E|E]; rewrite E; [left|right]; split; try reflexivity; lra. Qed.
  Lemma belief_signed t v : (v < a_cols H)%nat -> belief H msa_rule Lp t v = (sg v * belief H msa_rule L t v)%R.
  Proof.
    apply (belief_sym H msa_rule sg).
    - intros q l. apply msa_pm. intros u _. apply sg_pm.
    - apply sg_pm.
    - intros c Hc. unfold sg. rewrite (prod_sgn (fun v => nth v x 0%Z)) by (intros u _; apply bits_nth; exact Bx). specialize (Sx c Hc). rewrite sumto_vars in Sx by assumption. rewrite Sx. reflexivity.
    - intros u. reflexivity.
  Qed.
  Lemma hard_signed t : (forall v, (v < a_cols H)%nat -> (0 < belief H msa_rule Lp t v)%R) -> hard H msa_rule L t = map (fun b => (b =? 1)%Z) x.
  Proof.
    intros HP. apply (nth_ext _ _ false false); [unfold hard; rewrite !map_length, seq_length; lia|]. intros v Hv. unfold hard in Hv. rewrite map_length, seq_length in Hv. unfold hard. rewrite (nth_map_seq (fun v => negative (belief H msa_rule L t v))) by exact Hv. rewrite (nth_map_lt (fun b => (b =? 1)%Z) x v 0%Z) by lia.
    specialize (HP v Hv). rewrite belief_signed in HP by exact Hv. unfold negative. destruct (sg_cases v) as [[E1 E2]|[E1 E2]]; rewrite E1; rewrite E2 in HP; destruct (Rlt_dec _ 0); try reflexivity; exfalso; lra.
  Qed.
End Signed.
Lemma clip_pos y : (0 < y)%R -> (0 < clip500 y)%R. Proof. intros Hy. unfold clip500, Rmax, Rmin. destruct (Rle_dec 500 y); destruct (Rle_dec _ _); lra. Qed.
Lemma clip_zero : clip500 0 = 0%R. Proof. unfold clip500. rewrite Rmin_right, Rmax_right by lra. reflexivity. Qed.
Lemma clip_abs y : Rabs (clip500 y) = Rmin (Rabs y) 500.
Proof.
  unfold clip500. destruct (Rle_dec 500 y) as [H1|H1]; [rewrite Rmin_left, Rmax_right, !Rabs_right, Rmin_right by lra; reflexivity|]. rewrite Rmin_right by lra.
  destruct (Rle_dec (-500) y) as [H2|H2]; [rewrite Rmax_right by lra; rewrite Rmin_left; [reflexivity|apply Rabs_le; lra]|]. rewrite Rmax_left, !Rabs_left, Rmin_right by lra. lra.
Qed.
(* two words satisfying the checks differ on no check in exactly one place *)
Lemma satisfies_diff H (x w : list Z) c : binary H -> (c < length (a_rows H))%nat -> satisfies H x -> satisfies H w -> bits x -> bits w ->
  length (filter (fun v => negb (nth v x 0 =? nth v w 0)%Z) (vars_of H c)) <> 1%nat.
Proof.
  intros HB Hc Sx Sw Bx Bw E. specialize (Sx c Hc). specialize (Sw c Hc). rewrite sumto_vars in Sx, Sw by assumption.
  assert (G : forall l, ((Zsum (map (fun i => nth i x 0) l) + Zsum (map (fun i => nth i w 0) l)) mod 2 = Z.of_nat (length (filter (fun v => negb (nth v x 0 =? nth v w 0)) l)) mod 2)%Z).
  { induction l as [|v l IH]; [reflexivity|]. cbn [map filter]. rewrite !Zsum_cons. pose proof (bits_nth x v Bx) as Ex. pose proof (bits_nth w v Bw) as Ew. unfold is_bit in Ex, Ew. destruct (Z.eqb_spec (nth v x 0) (nth v w 0)) as [Eq|Ne]; cbn [negb length]; rewrite ?Nat2Z.inj_succ; generalize dependent (length (filter (fun v => negb (nth v x 0 =? nth v w 0)) l)); generalize dependent (Zsum (map (fun i => nth i x 0) l)); generalize dependent (Zsum (map (fun i => nth i w 0) l)); intros a b n IH; dlia. }
  specialize (G (vars_of H c)). rewrite E in G. change (Z.of_nat 1 mod 2)%Z with 1%Z in G. rewrite Zplus_mod, Sx, Sw in G. discriminate.
Qed.

Lemma C72_errors_proof :
(* hard-decision input (all received magnitudes equal), no two variables in two common checks, every check with two
     variables at least: up to half the least column weight errors are corrected, by the first iteration *)
  forall (p : ldpc) (H : arr2) (N : nat) (llr : list R) (x : list Z) (A : R),
    binary H -> p_matrix p = Some H -> n_vnodes p = a_cols H -> (1 <= a_cols H)%nat -> length llr = a_cols H ->
    (forall c, (c < length (a_rows H))%nat -> (2 <= length (vars_of H c))%nat) ->
    (forall v w, (v < a_cols H)%nat -> (w < a_cols H)%nat -> v <> w -> (common_checks H v w <= 1)%nat) ->
    length x = a_cols H -> bits x -> satisfies H x ->
    (0 < A)%R -> Forall (fun l => Rabs l = A) llr -> (1 <= N)%nat ->
    (forall v, (v < a_cols H)%nat -> (2 * length (errors x llr) <= length (checks_of H v))%nat) ->
    exists beliefs : list R, snd (ldpc_bp_decode real_ops llr p MSA N) = Ok [(map (fun b => b =? 1) x, beliefs)].
Proof.
  intros p H N llr x A HB HM Hn Hc Hl deg2 Hcom Hx Bx Sx HA HAl HN Hdeg. set (L := fun v => clip500 (nth v llr 0%R)). set (L1 := Lp x L).
  destruct (C39_belief_propagation_proof p H MSA N llr HB HM Hn Hc Hl (or_introl (conj eq_refl deg2))) as (T & HT & E & H1 & H2). fold L in E, H1, H2.
  assert (HA' : (0 < Rmin A 500)%R) by (apply Rmin_glb_lt; lra).
  assert (HLa : forall v, (v < a_cols H)%nat -> Rabs (L1 v) = Rmin A 500).
  { intros v Hv. unfold L1, Lp. rewrite Rabs_pm by (apply (sg_pm x Bx)). unfold L. rewrite clip_abs. rewrite Forall_forall in HAl. rewrite HAl by (apply nth_In; lia). reflexivity. }
  assert (HE : forall e, (e < a_cols H)%nat -> (if Rlt_dec (L1 e) 0 then true else false) = xorb (nth e x 0 =? 1) (negative (nth e llr 0%R))).
  { intros e He. assert (HC : (nth e llr 0%R < 0)%R /\ (L e < 0)%R \/ (0 < nth e llr 0%R)%R /\ (0 < L e)%R).
    { rewrite Forall_forall in HAl. assert (Hin : In (nth e llr 0%R) llr) by (apply nth_In; lia). specialize (HAl (nth e llr 0%R) Hin). destruct (Rlt_dec (nth e llr 0%R) 0) as [Hneg|Hneg].
      - left. split; [exact Hneg|]. pose proof (clip_pos (- nth e llr 0)%R ltac:(lra)) as Hp. replace (- nth e llr 0)%R with (-1 * nth e llr 0)%R in Hp by lra. rewrite (clip_pm (-1)) in Hp by (right; reflexivity). unfold L. lra.
      - right. assert (Hp : (0 < nth e llr 0)%R) by (destruct (Req_dec (nth e llr 0%R) 0) as [E0|]; [rewrite E0, Rabs_R0 in HAl; lra|lra]). split; [exact Hp|apply clip_pos; exact Hp]. }
    unfold L1, Lp. destruct (sg_cases x Bx e) as [[E1 E2]|[E1 E2]]; rewrite E1, E2; unfold negative; destruct HC as [[C1 C2]|[C1 C2]]; destruct (Rlt_dec (nth e llr 0%R) 0); try lra; destruct (Rlt_dec _ 0); try reflexivity; exfalso; lra. }
  assert (HEn : nerr H L1 = length (errors x llr)).
  { unfold nerr, errors. rewrite Hl. f_equal. apply filter_ext_in. intros e He. apply HE. apply in_seq in He. lia. }
  assert (Hdeg' : forall v, (v < a_cols H)%nat -> (2 * nerr H L1 <= length (checks_of H v))%nat) by (intros v Hv; rewrite HEn; apply Hdeg; exact Hv).
  exists (map (belief H msa_rule L T) (seq 0 (a_cols H))). rewrite E. do 3 f_equal.
  pose proof (hard_signed H x L HB Hx Bx Sx 1 (majority H L1 (Rmin A 500) HA' deg2 HLa Hcom Hdeg')) as Hh1.
  destruct T as [|[|T]]; [|exact Hh1|].
  - destruct H2 as [H2|H2]; [lia|]. destruct (Forall_Exists_dec (fun v => ~ (L1 v < 0)%R) (fun v => match Rlt_dec (L1 v) 0 with left e => right (fun f => f e) | right f => left f end) (seq 0 (a_cols H))) as [HF|HF].
    + apply (hard_signed H x L HB Hx Bx Sx). intros v Hv. cbn [belief]. rewrite Forall_forall in HF. specialize (HF v ltac:(apply in_seq; lia)). specialize (HLa v Hv). fold L1. destruct (Req_dec (L1 v) 0) as [E0|]; [rewrite E0, Rabs_R0 in HLa; lra|lra].
    + exfalso. apply Exists_exists in HF. destruct HF as (v & Hv & Hneg). apply in_seq in Hv. destruct (detected H L1 (Rmin A 500) deg2 HLa Hcom Hdeg') as (c & Hcm & E1).
      { exists v. split; [lia|]. destruct (Rlt_dec (L1 v) 0); [assumption|contradiction]. }
      assert (Bw : bits (map Z.b2z (hard H msa_rule L 0))) by (apply Forall_map, Forall_forall; intros b _; destruct b; [right|left]; reflexivity).
      apply (satisfies_diff H x _ c HB Hcm Sx H2 Bx Bw). rewrite <- E1. f_equal. apply filter_ext_in. intros e He. pose proof (vars_lt H c e He) as Hen. rewrite (HE e Hen).
      rewrite (nth_map_lt Z.b2z _ e false 0%Z) by (unfold hard; rewrite map_length, seq_length; exact Hen). unfold hard. rewrite (nth_map_seq (fun v => negative (belief H msa_rule L 0 v))) by exact Hen. cbn [belief]. unfold L.
      assert (EN : negative (clip500 (nth e llr 0%R)) = negative (nth e llr 0%R)).
      { unfold negative. destruct (Rlt_dec (nth e llr 0%R) 0) as [Hng|Hng]; unfold clip500, Rmax, Rmin; destruct (Rle_dec 500 _); destruct (Rle_dec (-500) _); destruct (Rlt_dec _ 0); try reflexivity; exfalso; lra. }
      rewrite EN. destruct (bits_nth x e Bx) as [Eb|Eb]; rewrite Eb; destruct (negative (nth e llr 0%R)); reflexivity.
  - exfalso. apply (H1 1%nat ltac:(lia)). rewrite Hh1, map_map. erewrite map_ext_in; [rewrite map_id; exact Sx|]. intros b Hb. cbn beta. unfold bits in Bx. rewrite Forall_forall in Bx. destruct (Bx b Hb) as [-> | ->]; reflexivity.
Qed.

Lemma C72_erasures_proof :
(* erasures received as LLR 0, no errors elsewhere: if the erased positions contain no stopping set and there are as many
     iterations as erasures, the codeword is recovered *)
  forall (p : ldpc) (H : arr2) (N : nat) (llr : list R) (x : list Z),
    binary H -> p_matrix p = Some H -> n_vnodes p = a_cols H -> (1 <= a_cols H)%nat -> length llr = a_cols H ->
    (forall c, (c < length (a_rows H))%nat -> (2 <= length (vars_of H c))%nat) ->
    length x = a_cols H -> bits x -> satisfies H x ->
    (forall v, (v < a_cols H)%nat -> nth v llr 0%R <> 0%R -> negative (nth v llr 0%R) = (nth v x 0 =? 1)) ->
    (forall S : nat -> bool, (forall v, S v = true -> erased llr v) -> stopping_set H S -> forall v, S v = false) ->
    (count_occ Req_EM_T llr 0%R <= N)%nat ->
    exists beliefs : list R, snd (ldpc_bp_decode real_ops llr p MSA N) = Ok [(map (fun b => b =? 1) x, beliefs)].
Proof.
  intros p H N llr x HB HM Hn Hc Hl deg2 Hx Bx Sx Hok Hstop HN. set (L := fun v => clip500 (nth v llr 0%R)). set (L1 := Lp x L).
  destruct (C39_belief_propagation_proof p H MSA N llr HB HM Hn Hc Hl (or_introl (conj eq_refl deg2))) as (T & HT & E & H1 & H2). fold L in E, H1, H2.
  assert (HL1 : forall v, (v < a_cols H)%nat /\ nth v llr 0%R <> 0%R /\ (0 < L1 v)%R \/ (nth v llr 0%R = 0%R /\ L1 v = 0%R)).
  { intros v. destruct (Req_dec (nth v llr 0%R) 0) as [E0|E0].
    - right. split; [exact E0|]. unfold L1, Lp, L. rewrite E0, clip_zero. lra.
    - left. assert (Hv : (v < a_cols H)%nat) by (destruct (Nat.lt_ge_cases v (a_cols H)); [assumption|]; exfalso; apply E0, nth_overflow; lia). split; [exact Hv|]. split; [exact E0|]. specialize (Hok v Hv E0). unfold negative in Hok. unfold L1, Lp, L.
      destruct (sg_cases x Bx v) as [[E1 E2]|[E1 E2]]; rewrite E1 in Hok; rewrite E2; rewrite <- clip_pm by (unfold pm; lra); apply clip_pos; destruct (Rlt_dec (nth v llr 0%R) 0); try discriminate; lra. }
  assert (HL0 : forall v, (0 <= L1 v)%R) by (intros v; destruct (HL1 v) as [(_ & _ & HP)|(_ & ->)]; lra).
  assert (Hstop' : forall S, (forall v, S v = true -> (v < a_cols H)%nat /\ L1 v = 0%R) -> stopping_set H S -> forall v, S v = false).
  { intros S HS HSt. apply Hstop; [|exact HSt]. intros v Hv. destruct (HS v Hv) as [Hv1 Hv2]. split; [lia|]. destruct (HL1 v) as [(_ & _ & HP)|(E0 & _)]; [lra|exact E0]. }
  assert (HC : count H L1 0 = count_occ Req_EM_T llr 0%R).
  { unfold count. assert (G : forall (l : list R) k, (forall i, (i < length l)%nat -> nth (k + i) llr 0%R = nth i l 0%R) -> (k + length l <= a_cols H)%nat -> length (filter (unknown H L1 0) (seq k (length l))) = count_occ Req_EM_T l 0%R).
    { induction l as [|y l IH]; intros k Hk Hkl; [reflexivity|]. cbn [length seq filter count_occ]. cbn [length] in Hkl.
      assert (EU : unknown H L1 0 k = if Req_EM_T y 0 then true else false).
      { unfold unknown. cbn [belief]. pose proof (Hk 0%nat ltac:(cbn; lia)) as E0. rewrite Nat.add_0_r in E0. cbn [nth] in E0. destruct (HL1 k) as [(Hv & Hz & HP)|(Hz & HP)]; rewrite E0 in Hz.
        - destruct (Rlt_dec 0 (L1 k)); [|lra]. destruct (Req_EM_T y 0); [lra|reflexivity].
        - rewrite HP. destruct (Rlt_dec 0 0); [lra|]. destruct (Req_EM_T y 0); [|lra]. apply Nat.ltb_lt. lia. }
      rewrite EU. assert (IH' := IH (S k) ltac:(intros i Hi; specialize (Hk (S i) ltac:(cbn; lia)); cbn [nth] in Hk; rewrite <- Hk; f_equal; lia) ltac:(lia)). destruct (Req_EM_T y 0); cbn [length]; rewrite IH'; reflexivity. }
    rewrite <- Hl at 1. apply G; [intros i Hi; reflexivity|lia]. }
  exists (map (belief H msa_rule L T) (seq 0 (a_cols H))). rewrite E. do 3 f_equal.
  destruct H2 as [-> |H2].
  - apply (hard_signed H x L HB Hx Bx Sx). apply (all_known H L1 deg2 HL0 Hstop'). lia.
  - (* the difference to x is a stopping set inside the erasures *)
    assert (Bw : bits (map Z.b2z (hard H msa_rule L T))) by (apply Forall_map, Forall_forall; intros b _; destruct b; [right|left]; reflexivity).
    set (w := map Z.b2z (hard H msa_rule L T)) in *. assert (Hlh : length (hard H msa_rule L T) = a_cols H) by (unfold hard; rewrite map_length, seq_length; reflexivity).
    set (D := fun v => ((v <? a_cols H)%nat && negb (nth v x 0 =? nth v w 0)%Z)%bool).
    assert (HD : forall v, D v = false).
    { apply Hstop'.
      - intros v Hv. unfold D in Hv. apply andb_prop in Hv. destruct Hv as [Hv Hne]. apply Nat.ltb_lt in Hv. split; [exact Hv|]. destruct (HL1 v) as [(_ & _ & HP)|(_ & E0)]; [exfalso|exact E0].
        assert (HP' : (0 < belief H msa_rule L1 T v)%R) by (clear - HP HL0 deg2 Hv; induction T as [|T IH]; [exact HP|apply (belief_mono H L1 deg2 HL0 T v Hv IH)]). unfold L1 in HP'. rewrite (belief_signed H x L HB Bx Sx) in HP' by exact Hv.
        apply Bool.negb_true_iff, Z.eqb_neq in Hne. apply Hne. unfold w. rewrite (nth_map_lt Z.b2z _ v false 0%Z) by lia. unfold hard. rewrite (nth_map_seq (fun v => negative (belief H msa_rule L T v))) by exact Hv. unfold negative.
        destruct (sg_cases x Bx v) as [[E1 E2]|[E1 E2]]; rewrite E1; rewrite E2 in HP'; destruct (Rlt_dec _ 0); try reflexivity; exfalso; lra.
      - intros c Hcm E1. apply (satisfies_diff H x w c HB Hcm Sx H2 Bx Bw). rewrite <- E1. f_equal. apply filter_ext_in. intros v Hv. unfold D. pose proof (vars_lt H c v Hv) as Hvn. apply Nat.ltb_lt in Hvn. rewrite Hvn. reflexivity. }
    apply (nth_ext _ _ false false); [rewrite map_length; lia|]. intros v Hv. rewrite Hlh in Hv. specialize (HD v). unfold D in HD. apply Nat.ltb_lt in Hv as Hv'. rewrite Hv' in HD. cbn [andb] in HD. apply Bool.negb_false_iff, Z.eqb_eq in HD. unfold w in HD. rewrite (nth_map_lt Z.b2z _ v false 0%Z) in HD by lia.
    rewrite (nth_map_lt (fun b => (b =? 1)%Z) x v 0%Z) by lia. rewrite HD. destruct (nth v (hard H msa_rule L T) false); reflexivity.
Qed.

Lemma C72_stopping_sets_proof :
(* conversely, the positions of an erased stopping set are never resolved, whatever was received elsewhere: their LLR
     stays 0 and their bit 0 *)
  forall (p : ldpc) (H : arr2) (N : nat) (llr : list R) (S : nat -> bool) (word : list bool) (beliefs : list R),
    binary H -> p_matrix p = Some H -> n_vnodes p = a_cols H -> (1 <= a_cols H)%nat -> length llr = a_cols H ->
    (forall c, (c < length (a_rows H))%nat -> (2 <= length (vars_of H c))%nat) ->
    (forall v, S v = true -> erased llr v) -> stopping_set H S ->
    snd (ldpc_bp_decode real_ops llr p MSA N) = Ok [(word, beliefs)] ->
    forall v, S v = true -> nth v beliefs 1%R = 0%R /\ nth v word true = false.
Proof.
  intros p H N llr S w b HB HM Hn Hc Hl deg2 HS HSt HE v Hv. set (L := fun v => clip500 (nth v llr 0%R)).
  destruct (C39_belief_propagation_proof p H MSA N llr HB HM Hn Hc Hl (or_introl (conj eq_refl deg2))) as (T & HT & E & _ & _). fold L in E. rewrite HE in E.
  assert (Ew : w = hard H msa_rule L T) by congruence. assert (Eb : b = map (belief H msa_rule L T) (seq 0 (a_cols H))) by congruence. clear E HE.
  assert (Z : forall t, (forall c u, (c < length (a_rows H))%nat -> In u (vars_of H c) -> S u = true -> to_check H msa_rule L t c u = 0%R) /\ (forall u, (u < a_cols H)%nat -> S u = true -> belief H msa_rule L t u = 0%R)).
  { assert (HL0 : forall u, S u = true -> L u = 0%R) by (intros u Hu; destruct (HS u Hu) as [_ E0]; unfold L; rewrite E0; exact clip_zero).
    induction t as [|t [IH1 IH2]]; [split; intros; apply HL0; assumption|].
    assert (NU : forall c u, (c < length (a_rows H))%nat -> In u (vars_of H c) -> S u = true -> to_var H msa_rule (to_check H msa_rule L t) c u = 0%R).
    { intros c u Hcm Hu Su. assert (HX : exists y, In y (vars_of H c) /\ y <> u /\ S y = true).
      { specialize (HSt c Hcm). assert (Hi : In u (filter S (vars_of H c))) by (apply filter_In; split; assumption). pose proof (NoDup_filter S (vars_NoDup H c)) as HN0. assert (HI : forall y, In y (filter S (vars_of H c)) -> In y (vars_of H c) /\ S y = true) by (intros y Hy; apply filter_In in Hy; exact Hy).
        destruct (filter S (vars_of H c)) as [|a [|d l]]; [destruct Hi|cbn in HSt; congruence|]. destruct (Nat.eq_dec a u) as [->|Hne].
        - exists d. destruct (HI d ltac:(right; left; reflexivity)) as [I1 I2]. split; [exact I1|]. split; [|exact I2]. intros ->. inversion HN0 as [|? ? Hna _]. apply Hna. left. reflexivity.
        - exists a. destruct (HI a ltac:(left; reflexivity)) as [I1 I2]. split; [exact I1|]. split; [exact Hne|exact I2]. }
      destruct HX as (y & Hy & Hyu & Sy). unfold to_var. match goal with |- msa_rule ?l = _ => set (ms := l) end. unfold msa_rule. subst ms.
      assert (E0 : prodR (map signR (map (to_check H msa_rule L t c) (filter (fun z => negb (z =? u)%nat) (vars_of H c)))) = 0%R); [|rewrite E0; lra].
      assert (Hi : In y (filter (fun z => negb (z =? u)%nat) (vars_of H c))) by (apply filter_In; split; [exact Hy|]; apply Nat.eqb_neq in Hyu; rewrite Hyu; reflexivity).
      revert Hi. generalize (filter (fun z => negb (z =? u)%nat) (vars_of H c)). intros l Hi. induction l as [|z l IHl]; [destruct Hi|]. cbn [map prodR fold_right]. destruct Hi as [->|Hi].
      - rewrite (IH1 c y Hcm Hy Sy). destruct (signR_cases 0) as [(?&_)|[(?&_)|(_&->&_)]]; lra.
      - unfold prodR in IHl. rewrite (IHl Hi). lra. }
    assert (BE : forall u, (u < a_cols H)%nat -> S u = true -> posterior H msa_rule L (to_check H msa_rule L t) u = 0%R).
    { intros u Hu Su. unfold posterior. rewrite (HL0 u Su). pose proof (fun c Hi => checks_in H c u Hi Hu) as HI. revert HI. generalize (checks_of H u). intros l HI. induction l as [|c l IHl]; [rewrite total_nil; lra|]. rewrite total_cons. destruct (HI c (or_introl eq_refl)) as [C1 C2]. rewrite (NU c u C1 C2 Su). rewrite Rplus_0_l in IHl |- *. rewrite Rplus_0_l. apply IHl. intros d Hd. apply HI. right. exact Hd. }
    split; [|exact BE]. intros c u Hcm Hu Su. cbn [to_check]. rewrite (BE u (vars_lt H c u Hu) Su), (NU c u Hcm Hu Su). lra. }
  destruct (HS v Hv) as [Hvl _]. assert (Hvn : (v < a_cols H)%nat) by lia. pose proof (proj2 (Z T) v Hvn Hv) as E0. split.
  - rewrite Eb, (nth_map_lt (belief H msa_rule L T) _ v 0%nat) by (rewrite seq_length; exact Hvn). rewrite seq_nth by exact Hvn. exact E0.
  - rewrite Ew. unfold hard. rewrite (nth_map_lt (fun v => negative (belief H msa_rule L T v)) _ v 0%nat) by (rewrite seq_length; exact Hvn). rewrite seq_nth by exact Hvn. cbn [Nat.add]. rewrite E0. unfold negative. destruct (Rlt_dec 0 0); [lra|reflexivity].
Qed.
