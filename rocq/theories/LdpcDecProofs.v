(* The belief-propagation decoder, for every interpretation of the arithmetic. *)
From Verif Require Import Base LdpcModel LdpcSpec LdpcProofs LdpcFile LdpcDecModel.
Open Scope Z_scope.
Notation nth := List.nth.
Notation length := List.length.

Definition word (dec : list bool) : list Z := map Z.b2z dec.
Lemma word_nth dec j : nth j (word dec) 0 = Z.b2z (nth j dec false).
Proof. unfold word. change 0 with (Z.b2z false) at 1. apply map_nth. Qed.

Lemma support_sum r x n : bits r -> length r = n -> sumto n (fun j => nth j r 0 * nth j x 0) = Zsum (map (fun j => nth j x 0) (nonzero r)).
Proof.
  intros Hb <-. unfold sumto, nonzero.
  assert (G : forall s, (forall i, In i s -> is_bit (nth i r 0)) -> Zsum (map (fun j => nth j r 0 * nth j x 0) s) = Zsum (map (fun j => nth j x 0) (filter (fun i => negb (nth i r 0 =? 0)) s))).
  { induction s as [|i s IH]; intros Hs; [reflexivity|]. cbn [map filter]. rewrite Zsum_cons, IH by (intros k Hk; apply Hs; right; exact Hk). destruct (Hs i (or_introl eq_refl)) as [E|E]; rewrite E; cbn [Z.eqb negb map]; rewrite ?Zsum_cons; lia. }
  apply G. intros i _. apply bits_nth. exact Hb.
Qed.

Lemma checks_ok H dec : binary H -> checks H dec = true <-> satisfies H (word dec).
Proof.
  intros [Hsh Hb]. unfold checks, satisfies. rewrite forallb_forall.
  assert (E : forall i, (i < length (a_rows H))%nat -> sumto (a_cols H) (fun j => hij (a_rows H) i j * nth j (word dec) 0) = Zsum (map (fun j => Z.b2z (nth j dec false)) (nonzero (nth i (a_rows H) [])))).
  { intros i Hi. unfold hij. rewrite support_sum; [|apply (proj1 (Forall_forall _ _) Hb), nth_In; exact Hi|apply (proj1 (Forall_forall _ _) Hsh), nth_In; exact Hi].
    f_equal. apply map_ext. intros j. apply word_nth. }
  split.
  - intros HA i Hi. rewrite E by exact Hi. apply Z.eqb_eq, HA, nth_In. exact Hi.
  - intros HA r Hr. apply (In_nth _ _ []) in Hr. destruct Hr as (i & Hi & <-). apply Z.eqb_eq. rewrite <- E by exact Hi. apply HA. exact Hi.
Qed.

Section Generic.
  Variable o : numops.
  Local Notation F := (num o).

  (* more iterations do not change a codeword *)
  Lemma iterate_stable H a llr : forall n N msgs dec out dec' out', iterate o H a llr n msgs dec out = Ok (dec', out') -> checks H dec' = true -> (n <= N)%nat -> iterate o H a llr N msgs dec out = Ok (dec', out').
  Proof.
    induction n as [|n IH]; intros N msgs dec out dec' out' E HC HN; cbn [iterate] in E.
    - injection E as <- <-. destruct N as [|N]; cbn [iterate]; [reflexivity|]. rewrite HC. reflexivity.
    - destruct N as [|N]; [lia|]. cbn [iterate]. destruct (checks H dec); [exact E|]. destruct (check_update o a msgs) as [ms|e]; [|discriminate]. cbn [bind] in E |- *. apply IH; [exact E|exact HC|lia].
  Qed.
  Lemma iterate_decisions H a llr : forall n msgs dec out dec' out', dec = map (n_signbit o) out -> iterate o H a llr n msgs dec out = Ok (dec', out') -> dec' = map (n_signbit o) out'.
  Proof.
    induction n as [|n IH]; intros msgs dec out dec' out' HD E; cbn [iterate] in E; [injection E as <- <-; exact HD|].
    destruct (checks H dec); [injection E as <- <-; exact HD|]. destruct (check_update o a msgs) as [ms|e]; [|discriminate]. cbn [bind] in E. exact (IH _ _ _ _ _ eq_refl E).
  Qed.
  Lemma iterate_length H a llr : length llr = a_cols H -> forall n msgs dec out dec' out', length out = a_cols H -> length dec = a_cols H -> iterate o H a llr n msgs dec out = Ok (dec', out') -> length dec' = a_cols H /\ length out' = a_cols H.
  Proof.
    intros Hl. induction n as [|n IH]; intros msgs dec out dec' out' Ho Hd E; cbn [iterate] in E; [injection E as <- <-; split; assumption|].
    destruct (checks H dec); [injection E as <- <-; split; assumption|]. destruct (check_update o a msgs) as [ms|e]; [|discriminate]. cbn [bind] in E. refine (IH _ _ _ _ _ _ _ E); rewrite ?map_length, ?seq_length; reflexivity.
  Qed.
  Lemma iterate_codeword H a llr n msgs dec out : checks H dec = true -> iterate o H a llr n msgs dec out = Ok (dec, out).
  Proof. intros HC. destruct n as [|n]; cbn [iterate]; [reflexivity|]. rewrite HC. reflexivity. Qed.
  (* from n iterations on, one more iteration either changes nothing or was needed *)
  Lemma iterate_name H llr n msgs dec out : checks H dec = false -> iterate o H OtherName llr (S n) msgs dec out = Err NameError.
  Proof. intros HC. cbn [iterate]. rewrite HC. reflexivity. Qed.

  Lemma spread_length H v : length (spread o H v) = length (a_rows H). Proof. unfold spread. apply map_length. Qed.
  Lemma msa_degree_one H llr n dec out v : checks H dec = false -> Exists (fun r => length (nonzero r) = 1%nat) (a_rows H) -> iterate o H MSA llr (S n) (spread o H v) dec out = Err ValueError.
  Proof.
    intros HC HE. cbn [iterate]. rewrite HC. cbn [check_update].
    assert (E : mapM (msa_row o) (spread o H v) = Err ValueError); [|rewrite E; reflexivity]. unfold spread. induction HE as [r rows Hr|r rows _ IH]; cbn [map mapM].
    - destruct (nonzero r) as [|j [|k s]]; cbn in Hr; try lia. cbn [map]. unfold msa_row. reflexivity.
    - destruct (msa_row o _) as [x|e] eqn:Em; cbn [bind]; [rewrite IH; reflexivity|]. f_equal. clear - Em. unfold msa_row in Em. revert Em. generalize (seq 0 (length (map (fun j => nth j v (n_zero o)) (nonzero r)))). intros l. induction l as [|i l IH]; cbn [mapM]; [discriminate|].
      destruct (list_min o _) as [y|e'] eqn:El; cbn [bind].
      + destruct (mapM _ l) as [z|e2]; cbn [bind]; [discriminate|exact IH].
      + intros E. injection E as <-. unfold list_min in El. destruct (map (n_abs o) _); [injection El as <-; reflexivity|discriminate].
  Qed.

  (* blocks *)
  Lemma chunks_app {A} c (l1 l2 : list A) b1 b2 : length l1 = (b1 * c)%nat -> chunks c (b1 + b2) (l1 ++ l2) = chunks c b1 l1 ++ chunks c b2 l2.
  Proof.
    revert l1. induction b1 as [|b1 IH]; intros l1 Hl; [destruct l1; [reflexivity|cbn in Hl; lia]|]. cbn [Nat.add chunks app]. rewrite firstn_app, skipn_app. cbn [Nat.mul] in Hl.
    replace (c - length l1)%nat with 0%nat by lia. cbn [firstn skipn]. rewrite app_nil_r. rewrite IH by (rewrite skipn_length; lia). reflexivity.
  Qed.
  Lemma mapM_app {A B} (f : A -> res B) l1 l2 : mapM f (l1 ++ l2) = (r1 <- mapM f l1 ;; r2 <- mapM f l2 ;; Ok (r1 ++ r2)).
  Proof.
    induction l1 as [|a l1 IH]; cbn [app mapM bind]; [destruct (mapM f l2); reflexivity|]. destruct (f a) as [b|e]; cbn [bind]; [|reflexivity]. rewrite IH.
    destruct (mapM f l1) as [r1|e]; cbn [bind]; [|reflexivity]. destruct (mapM f l2); reflexivity.
  Qed.

  Lemma decode_ready llr p H a it b : p_matrix p = Some H -> n_vnodes p = a_cols H -> (1 <= a_cols H)%nat -> (1 <= b)%nat -> length llr = (b * a_cols H)%nat ->
    ldpc_bp_decode o llr p a it = (map (n_clip o) llr, p, mapM (decode_block o H a it) (chunks (a_cols H) b (map (n_clip o) llr))).
  Proof.
    intros HM Hn Hc Hb Hl. unfold ldpc_bp_decode. rewrite HM. cbn [bind]. rewrite HM, Hn, map_length, Hl.
    replace (a_cols H =? 0)%nat with false by (symmetry; apply Nat.eqb_neq; lia). rewrite Nat.mod_mul by lia. rewrite Nat.div_mul by lia.
    replace (b * a_cols H =? 0)%nat with false by (symmetry; apply Nat.eqb_neq; intros E; apply Nat.eq_mul_0 in E; lia). reflexivity.
  Qed.
End Generic.
