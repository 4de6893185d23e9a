(* The encoder produces codewords. *)
From Coq Require Import QArith Qround.
From Verif Require Import Base LdpcModel LdpcSpec LdpcAlg LinksProofs ViterbiArray.
Open Scope Z_scope.

Lemma list_ext_d {A} (d : A) l l' : length l = length l' -> (forall i, (i < length l)%nat -> nth i l d = nth i l' d) -> l = l'.
Proof. intros H1 H2. apply (nth_ext l l' d d); assumption. Qed.
Lemma sumto_ext n f g : (forall i, (i < n)%nat -> f i = g i) -> sumto n f = sumto n g.
Proof. intros H. unfold sumto. f_equal. apply map_ext_in. intros i Hi. apply in_seq in Hi. apply H. lia. Qed.
Lemma sumto_S n f : sumto (S n) f = f 0%nat + sumto n (fun i => f (S i)).
Proof. unfold sumto. cbn [seq map]. rewrite Zsum_cons, <- seq_shift, map_map. reflexivity. Qed.
Lemma sumto_Q n f : (inject_Z (sumto n f) == Qsum (fun i => inject_Z (f i)) n)%Q.
Proof. revert f. induction n as [|n IH]; intros f; [reflexivity|]. rewrite sumto_S, Qsum_S, inject_Z_plus, IH. reflexivity. Qed.
Lemma sumto_add n f g : sumto n (fun i => f i + g i) = sumto n f + sumto n g.
Proof. revert f g. induction n as [|n IH]; intros f g; [reflexivity|]. rewrite !sumto_S, IH. lia. Qed.
Lemma sumto_split a b f : sumto (a + b) f = sumto a f + sumto b (fun i => f (a + i)%nat).
Proof. revert f. induction a as [|a IH]; intros f; [reflexivity|]. rewrite Nat.add_succ_l, !sumto_S, IH. cbn [Nat.add]. lia. Qed.
Lemma sumto_mod n f : sumto n f mod 2 = sumto n (fun i => f i mod 2) mod 2.
Proof. revert f. induction n as [|n IH]; intros f; [reflexivity|]. rewrite !sumto_S. rewrite Z.add_mod, IH by lia. apply Z.add_mod_idemp_r. lia. Qed.

Lemma skipn_skipn' {A} a b (l : list A) : skipn a (skipn b l) = skipn (b + a) l.
Proof. revert l. induction b as [|b IH]; intros [|x l]; cbn [skipn Nat.add]; try reflexivity; [destruct a; reflexivity|apply IH]. Qed.
Lemma chunks_length {A} c r (l : list A) : length (chunks c r l) = r.
Proof. revert l. induction r as [|r IH]; intros l; cbn [chunks]; [reflexivity|]. cbn. rewrite IH. reflexivity. Qed.
Lemma chunks_nth {A} c r (l : list A) i : (i < r)%nat -> nth i (chunks c r l) [] = firstn c (skipn (i * c) l).
Proof.
  revert l i. induction r as [|r IH]; intros l i Hi; [lia|]. cbn [chunks]. destruct i as [|i]; [reflexivity|]. cbn [nth]. rewrite IH by lia.
  rewrite skipn_skipn'. reflexivity.
Qed.
Lemma chunks_entry {A} c r (l : list A) i j d : length l = (r * c)%nat -> (i < r)%nat -> (j < c)%nat -> nth j (nth i (chunks c r l) []) d = nth (i * c + j) l d.
Proof. intros Hl Hi Hj. rewrite chunks_nth by exact Hi. rewrite firstn_nth, skipn_nth by exact Hj. reflexivity. Qed.
Lemma chunks_row_length {A} c r (l : list A) i : length l = (r * c)%nat -> (i < r)%nat -> length (nth i (chunks c r l) []) = c.
Proof. intros Hl Hi. rewrite chunks_nth by exact Hi. rewrite firstn_length, skipn_length. assert ((i + 1) * c <= r * c)%nat by (apply Nat.mul_le_mono_r; lia). lia. Qed.
Lemma chunks_concat {A} c r (l : list A) : length l = (r * c)%nat -> concat (chunks c r l) = l.
Proof.
  revert l. induction r as [|r IH]; intros l Hl; cbn [chunks concat]; [destruct l; [reflexivity|cbn in Hl; lia]|].
  rewrite IH by (rewrite skipn_length; lia). apply firstn_skipn.
Qed.
Lemma chunks_In {A} c r (l : list A) b : length l = (r * c)%nat -> In b (chunks c r l) -> length b = c.
Proof. intros Hl Hb. apply (In_nth _ _ []) in Hb. destruct Hb as (i & Hi & <-). rewrite chunks_length in Hi. apply (chunks_row_length c r); assumption. Qed.
Lemma chunks_In_bits c r l b : bits l -> In b (chunks c r l) -> bits b.
Proof. revert l. induction r as [|r IH]; intros l Hl Hb; [destruct Hb|]. destruct Hb as [<-|Hb]; [apply bits_firstn; exact Hl|]. apply (IH (skipn c l)); [apply bits_skipn; exact Hl|exact Hb]. Qed.

(* ---------------------------------------------------------------- the parity-check matrix *)
Lemma one_row_ok n idx : (forall x, In x idx -> 0 <= x < Z.of_nat n) ->
  exists row, one_row n idx = Ok row /\ length row = n /\ forall j, (j < n)%nat -> nth j row 0 = if existsb (Z.eqb (Z.of_nat j)) idx then 1 else 0.
Proof.
  unfold one_row. intros H.
  assert (G : forall l row0, (forall x, In x l -> 0 <= x < Z.of_nat n) -> length row0 = n ->
            exists row, foldM (fun row i => py_set row i 1) l row0 = Ok row /\ length row = n /\ forall j, (j < n)%nat -> nth j row 0 = if existsb (Z.eqb (Z.of_nat j)) l then 1 else nth j row0 0).
  { induction l as [|x l IH]; intros row0 Hl H0; [exists row0; repeat split; [exact H0]|]. cbn [foldM]. unfold py_set at 1, py_idx.
    assert (Hx : 0 <= x < Z.of_nat n) by (apply Hl; left; reflexivity). replace ((0 <=? x) && (x <? Z.of_nat (length row0))) with true by lia. cbn [bind].
    destruct (IH (upd row0 (Z.to_nat x) 1)) as (row & E & HL & HN); [intros y Hy; apply Hl; right; exact Hy|rewrite upd_length; exact H0|].
    exists row. split; [exact E|]. split; [exact HL|]. intros j Hj. rewrite HN by exact Hj. cbn [existsb]. rewrite nth_upd.
    destruct (Z.eqb_spec (Z.of_nat j) x) as [Ejx|Ejx]; cbn [orb].
    - replace ((j =? Z.to_nat x)%nat) with true by lia. replace ((Z.to_nat x <? length row0)%nat) with true by lia. cbn [andb]. destruct (existsb _ l); reflexivity.
    - replace ((j =? Z.to_nat x)%nat) with false by lia. cbn [andb]. reflexivity. }
  destruct (G idx (repeat 0 n) H (repeat_length _ _)) as (row & E & HL & HN). exists row. split; [exact E|]. split; [exact HL|]. intros j Hj. rewrite HN by exact Hj. rewrite nth_repeat_same. reflexivity.
Qed.

Lemma parity_rows_ok p H : describes p H -> parity_rows p = Ok (a_rows H).
Proof.
  intros ((Hsh & Hbin) & Hn & Hm & Hl & Hd & Hc). unfold parity_rows, reshape2. replace (length (c_adj p) =? n_cnodes p * max_cdeg p)%nat with true by (symmetry; apply Nat.eqb_eq; exact Hl). cbn [bind].
  set (adj := chunks (max_cdeg p) (n_cnodes p) (c_adj p)).
  rewrite (mapM_Ok _ (fun c => nth c (a_rows H) [])).
  - f_equal. rewrite Hm. apply (list_ext_d []); [apply map_seq_length|]. intros i Hi. rewrite map_seq_length in Hi. apply (nth_map_seq (fun c => nth c (a_rows H) [])). exact Hi.
  - intros c Hin. apply in_seq in Hin. destruct (Hc c ltac:(lia)) as (Hdr & Hnb & Hent). set (d := nth c (c_deg p) 0) in *.
    rewrite (py_get_ok _ _ 0) by lia. cbn [bind]. fold d.
    assert (Hrow : length (nth c adj []) = max_cdeg p) by (apply chunks_row_length; [exact Hl|lia]).
    assert (Hup : upto (nth c adj []) d = firstn (Z.to_nat d) (nth c adj [])) by (unfold upto; replace (d <? 0) with false by lia; reflexivity).
    assert (Hlen : length (upto (nth c adj []) d) = Z.to_nat d) by (rewrite Hup, firstn_length; lia).
    assert (Hel : forall i, (i < Z.to_nat d)%nat -> nth i (upto (nth c adj []) d) (-1) = nth (c * max_cdeg p + i) (c_adj p) (-1)).
    { intros i Hi. rewrite Hup, firstn_nth by exact Hi. apply chunks_entry; [exact Hl|lia|lia]. }
    destruct (one_row_ok (n_vnodes p) (upto (nth c adj []) d)) as (row & E & HL & HN).
    { intros x Hx. apply (In_nth _ _ (-1)) in Hx. destruct Hx as (i & Hi & <-). rewrite Hlen in Hi. rewrite Hel by exact Hi. apply Hnb. exact Hi. }
    rewrite E. f_equal. assert (Hrl : length (nth c (a_rows H) []) = a_cols H) by (apply (proj1 (Forall_forall _ _) Hsh), nth_In; lia).
    apply (list_ext_d 0); [lia|]. intros j Hj. rewrite HL in Hj. rewrite HN by exact Hj.
    assert (Hb : is_bit (nth j (nth c (a_rows H) []) 0)) by (apply bits_nth, (proj1 (Forall_forall _ _) Hbin), nth_In; lia).
    destruct (existsb _ _) eqn:Ex.
    + apply existsb_exists in Ex. destruct Ex as (x & Hx & Exj). apply Z.eqb_eq in Exj. apply (In_nth _ _ (-1)) in Hx. destruct Hx as (i & Hi & Ei). rewrite Hlen in Hi. rewrite Hel in Ei by exact Hi.
      symmetry. apply Hent; [exact Hj|]. exists i. split; [exact Hi|lia].
    + destruct Hb as [Hb|Hb]; [symmetry; exact Hb|exfalso]. apply (Hent j Hj) in Hb. destruct Hb as (i & Hi & Ei).
      assert (Ht : existsb (Z.eqb (Z.of_nat j)) (upto (nth c adj []) d) = true); [|rewrite Ht in Ex; discriminate]. apply existsb_exists. exists (nth i (upto (nth c adj []) d) (-1)).
      split; [apply nth_In; lia|]. rewrite Hel by exact Hi. apply Z.eqb_eq. lia.
Qed.

(* ---------------------------------------------------------------- build_matrix *)
Section Build.
  Variables (H : arr2).
  Hypothesis HB : binary H.
  Local Notation n := (a_cols H).
  Local Notation m := (length (a_rows H)).
  Local Notation k := (a_cols H - length (a_rows H))%nat.
  Hypothesis Hmn : (1 <= m <= n)%nat.
  Definition sys_part : list (list Q) := map (fun r => map inject_Z (skipn k r)) (a_rows H).
  Definition par_part : list (list Q) := map (fun r => map inject_Z (firstn k r)) (a_rows H).

  Lemma row_len i : (i < m)%nat -> length (nth i (a_rows H) []) = n.
  Proof using HB. intros Hi. apply (proj1 (Forall_forall _ _) (proj1 HB)), nth_In. exact Hi. Qed.
  Lemma sys_entry i l : (i < m)%nat -> (l < m)%nat -> qe sys_part i l = inject_Z (hij (a_rows H) i (k + l)).
  Proof using HB Hmn.
    intros Hi Hl. unfold qe, sys_part. rewrite (nth_map_lt (fun r => map inject_Z (skipn k r)) (a_rows H) i []) by exact Hi.
    rewrite (nth_map_lt inject_Z _ l 0%Z) by (rewrite skipn_length, row_len; lia). rewrite skipn_nth. reflexivity.
  Qed.
  Lemma par_entry i j : (i < m)%nat -> (j < k)%nat -> qe par_part i j = inject_Z (hij (a_rows H) i j).
  Proof using HB Hmn.
    intros Hi Hj. unfold qe, par_part. rewrite (nth_map_lt (fun r => map inject_Z (firstn k r)) (a_rows H) i []) by exact Hi.
    rewrite (nth_map_lt inject_Z _ j 0%Z) by (rewrite firstn_length, row_len; lia). rewrite firstn_nth by exact Hj. reflexivity.
  Qed.
  Lemma sys_square : square m sys_part.
  Proof using HB Hmn.
    split; [unfold sys_part; apply map_length|]. intros i Hi. unfold sys_part. rewrite (nth_map_lt (fun r => map inject_Z (skipn k r)) (a_rows H) i []) by exact Hi.
    rewrite map_length, skipn_length, row_len by exact Hi. lia.
  Qed.
  Lemma sys_int : int_entries m sys_part.
  Proof using HB Hmn. intros i l Hi Hl. rewrite sys_entry by assumption. apply isint_Z. Qed.

  Lemma build_ok p : describes p H -> (exists p', build_matrix p = (p', Ok tt) /\ p_matrix p' = Some H /\ exists B, inv_matrix sys_part = Some B /\ p_gen p' = Some (k, matmul B k par_part))
     \/ (build_matrix p = (set_matrix p H, Err RuntimeError) /\ ~ injective m sys_part).
  Proof using HB Hmn.
    intros HD. unfold build_matrix. rewrite (parity_rows_ok p H HD). destruct HD as (_ & Hn & Hm & _). rewrite Hn, Hm. unfold systematic_start.
    replace (m =? 0)%nat with false by (symmetry; apply Nat.eqb_neq; lia). replace (n - (n - m) =? m)%nat with true by (symmetry; apply Nat.eqb_eq; lia). cbn [negb].
    fold sys_part par_part. pose proof (inv_matrix_spec m sys_part sys_square) as HI. replace {| a_cols := n; a_rows := a_rows H |} with H by (destruct H; reflexivity).
    destruct (inv_matrix sys_part) as [B|]; [left|right; split; [reflexivity|exact HI]]. eexists. split; [reflexivity|]. split; [reflexivity|]. exists B. split; reflexivity.
  Qed.

  (* parity of one block *)
  Section Block.
    Variables (B : list (list Q)) (u : list Z).
    Hypothesis HInt : integral m sys_part.
    Hypothesis HInv : inv_matrix sys_part = Some B.
    Hypothesis Hu : length u = k.
    Local Notation G := (matmul B k par_part).
    Local Notation par := (map (fun g => qmod2_int (qdot g (map inject_Z u))) G).

    Lemma gen_facts : length G = m /\ (forall i, (i < m)%nat -> length (nth i G []) = k) /\
      (forall i j, (i < m)%nat -> (j < k)%nat -> (Qsum (fun l => qe sys_part i l * qe G l j) m == inject_Z (hij (a_rows H) i j))%Q) /\
      (forall l j, (l < m)%nat -> (j < k)%nat -> isint (qe G l j)).
    Proof.
      destruct (gen_spec m k sys_part B par_part sys_square HInv) as (H1 & H2 & H3); [unfold par_part; apply map_length| |].
      { intros i Hi. unfold par_part. rewrite (nth_map_lt (fun r => map inject_Z (firstn k r)) (a_rows H) i []) by exact Hi. rewrite map_length, firstn_length, row_len by exact Hi. lia. }
      split; [exact H1|]. split; [exact H2|]. split; [intros i j Hi Hj; rewrite H3 by assumption; rewrite par_entry by assumption; reflexivity|].
      intros l j Hl Hj. apply (HInt (fun l => qe G l j)); [|exact Hl]. intros i Hi. eapply isint_eq; [apply H3; assumption|]. rewrite par_entry by assumption. apply isint_Z.
    Qed.

    Lemma block_ok : length par = m /\ bits par /\ (bits u -> satisfies H (u ++ par)).
    Proof.
      destruct gen_facts as (HG & HGr & HSG & HGi). split; [rewrite map_length; exact HG|].
      assert (Hq : forall l, (l < m)%nat -> (qdot (nth l G []) (map inject_Z u) == Qsum (fun j => qe G l j * inject_Z (nth j u 0%Z)) k)%Q).
      { intros l Hl. rewrite (qdot_sum _ _ k) by (try (apply HGr; exact Hl); rewrite map_length; exact Hu). apply Qsum_ext. intros j Hj. unfold qn at 2. rewrite (nth_map_lt inject_Z u j 0%Z) by lia. reflexivity. }
      set (z := fun l => Qfloor (qdot (nth l G []) (map inject_Z u))).
      assert (Hz : forall l, (l < m)%nat -> (qdot (nth l G []) (map inject_Z u) == inject_Z (z l))%Q).
      { intros l Hl. assert (Hi : isint (qdot (nth l G []) (map inject_Z u))).
        { eapply isint_eq; [apply Hq; exact Hl|]. apply isint_sum. intros j Hj. apply isint_mul; [apply HGi; assumption|apply isint_Z]. }
        destruct Hi as [w Hw]. unfold z. rewrite (Qfloor_comp _ _ Hw), Qfloor_Z. exact Hw. }
      assert (Hp : forall l, (l < m)%nat -> nth l par 0 = z l mod 2).
      { intros l Hl. rewrite (nth_map_lt (fun g => qmod2_int (qdot g (map inject_Z u))) G l []) by lia. apply qmod2_int_Z. apply Hz. exact Hl. }
      split.
      - apply bits_of_nth. intros l Hl. rewrite map_length, HG in Hl. rewrite Hp by exact Hl. apply is_bit_mod2.
      - intros _ i Hi. replace n with (k + m)%nat at 1 by lia. rewrite sumto_split.
        set (T := sumto k (fun j => hij (a_rows H) i j * nth j u 0)).
        assert (E1 : sumto k (fun j => hij (a_rows H) i j * nth j (u ++ par) 0) = T) by (apply sumto_ext; intros j Hj; rewrite app_nth1 by lia; reflexivity).
        rewrite E1. rewrite (sumto_ext m _ (fun l => hij (a_rows H) i (k + l) * (z l mod 2))).
        2: { intros l Hl. f_equal. rewrite app_nth2 by lia. replace (k + l - length u)%nat with l by lia. apply Hp. exact Hl. }
        assert (E2 : sumto m (fun l => hij (a_rows H) i (k + l) * z l) = T).
        { assert (EQ : (inject_Z (sumto m (fun l => hij (a_rows H) i (k + l)%nat * z l)%Z) == inject_Z T)%Q); [|unfold Qeq in EQ; cbn [Qnum Qden inject_Z] in EQ; lia].
          unfold T. rewrite !sumto_Q.
          rewrite (Qsum_ext _ (fun l => Qsum (fun j => inject_Z (nth j u 0%Z) * (qe sys_part i l * qe G l j))%Q k)).
          2: { intros l Hl. rewrite inject_Z_mult, <- Hz, Hq, <- Qsum_scale by exact Hl. apply Qsum_ext. intros j Hj. rewrite sys_entry by assumption. ring. }
          rewrite Qsum_swap. apply Qsum_ext. intros j Hj. rewrite Qsum_scale, HSG by assumption. rewrite inject_Z_mult. ring. }
        rewrite Z.add_mod by lia. rewrite sumto_mod. rewrite (sumto_ext m _ (fun l => (hij (a_rows H) i (k + l) * z l) mod 2)).
        2: { intros l _. rewrite (Z.mul_mod _ (z l mod 2)) by lia. rewrite Z.mod_mod by lia. rewrite <- Z.mul_mod by lia. reflexivity. }
        rewrite <- sumto_mod, E2. rewrite <- Z.add_mod by lia. replace (T + T) with (T * 2) by lia. apply Z.mod_mul. lia.
    Qed.
  End Block.
End Build.

(* ---------------------------------------------------------------- the encoder *)
Definition ready (p : ldpc) (H : arr2) : Prop :=
  p_matrix p = Some H /\ exists B, inv_matrix (sys_part H) = Some B /\ p_gen p = Some ((a_cols H - length (a_rows H))%nat, matmul B (a_cols H - length (a_rows H)) (par_part H)).

Lemma concat_prefix k (f : list Z -> list Z) bs : (forall b, In b bs -> length b = k) -> concat (map (firstn k) (map (fun b => b ++ f b) bs)) = concat bs.
Proof.
  induction bs as [|b bs IH]; intros H; [reflexivity|]. cbn [map concat]. rewrite IH by (intros x Hx; apply H; right; exact Hx). f_equal.
  rewrite firstn_app, (H b) by (left; reflexivity). rewrite Nat.sub_diag. cbn [firstn]. rewrite app_nil_r. rewrite <- (H b) by (left; reflexivity). apply firstn_all.
Qed.

Lemma encode_ready p H msg : binary H -> (1 <= length (a_rows H) < a_cols H)%nat -> integral (length (a_rows H)) (sys_part H) -> ready p H -> bits msg ->
  exists blocks, triang_encode msg p true = (p, Ok blocks) /\ coded H msg blocks /\
    triang_encode msg p false = (p, if (length msg mod (a_cols H - length (a_rows H)) =? 0)%nat then Ok blocks else Err ValueError).
Proof.
  intros HB Hmn HI (HM & B & HInv & HG) Hmsg. set (k := (a_cols H - length (a_rows H))%nat) in *.
  assert (Hk : (1 <= k)%nat) by lia. unfold triang_encode. rewrite HG, HM. cbn [bind]. rewrite HG. replace (k =? 0)%nat with false by (symmetry; apply Nat.eqb_neq; lia).
  set (md := (length msg mod k)%nat). pose proof (Nat.mod_upper_bound (length msg) k ltac:(lia)) as Hmd. fold md in Hmd. pose proof (Nat.div_mod (length msg) k ltac:(lia)) as Hdm. fold md in Hdm.
  set (msg' := if (md =? 0)%nat then msg else msg ++ repeat 0 (k - md)).
  assert (Hlen : length msg' = (length msg' / k * k)%nat).
  { unfold msg'. destruct (Nat.eqb_spec md 0) as [E|E].
    - rewrite E in Hdm. rewrite Nat.add_0_r in Hdm. rewrite Hdm at 2. rewrite (Nat.mul_comm k). rewrite Nat.div_mul by lia. lia.
    - rewrite app_length, repeat_length. replace (length msg + (k - md))%nat with ((length msg / k + 1) * k)%nat by lia. rewrite Nat.div_mul by lia. reflexivity. }
  assert (Hb' : bits msg') by (unfold msg'; destruct (md =? 0)%nat; [exact Hmsg|apply bits_app; split; [exact Hmsg|apply bits_repeat0]]).
  rewrite andb_false_r. eexists. split; [reflexivity|]. split; [split|].
  - exists (if (md =? 0)%nat then 0 else k - md)%nat. split; [destruct (Nat.eqb_spec md 0); lia|]. rewrite concat_prefix by (intros b Hb; apply (chunks_In k _ _ b Hlen Hb)).
    rewrite chunks_concat by exact Hlen. unfold msg'. destruct (md =? 0)%nat; [cbn; rewrite app_nil_r|]; reflexivity.
  - apply Forall_map. apply Forall_forall. intros b Hb. pose proof (chunks_In k _ _ b Hlen Hb) as Hbl. pose proof (chunks_In_bits k _ _ b Hb' Hb) as Hbb.
    destruct (block_ok H HB ltac:(lia) B b HI HInv Hbl) as (H1 & H2 & H3). fold k in H1, H2, H3. split; [rewrite app_length, H1, Hbl; lia|]. split; [apply bits_app; split; assumption|apply H3; exact Hbb].
  - destruct (Nat.eqb_spec md 0) as [E|E]; cbn [negb andb]; [|reflexivity]. unfold msg'. rewrite ?E. reflexivity.
Qed.

Lemma inv_integral H : binary H -> (1 <= length (a_rows H) <= a_cols H)%nat -> int_invertible H -> integral (length (a_rows H)) (sys_part H).
Proof.
  intros HB Hmn (B & HI). apply (left_inverse_integral _ _ B). intros i l Hi Hl. specialize (HI i l Hi Hl).
  rewrite (Qsum_ext _ (fun q => inject_Z (B i q * hij (a_rows H) q (a_cols H - length (a_rows H) + l)))).
  2: { intros q Hq. rewrite (sys_entry H HB Hmn) by assumption. rewrite inject_Z_mult. reflexivity. }
  rewrite <- sumto_Q, HI. destruct (i =? l)%nat; reflexivity.
Qed.
Lemma lower_int H : binary H -> (1 <= length (a_rows H) <= a_cols H)%nat -> unit_lower H -> integral (length (a_rows H)) (sys_part H).
Proof.
  intros HB Hmn HL. apply lower_integral; [apply sys_int; assumption| |].
  - intros i Hi. rewrite (sys_entry H HB Hmn), HL by (try assumption; lia). rewrite Nat.eqb_refl. reflexivity.
  - intros i l Hi Hl Hil. rewrite (sys_entry H HB Hmn), HL by (try assumption; lia). replace (i =? l)%nat with false by (symmetry; apply Nat.eqb_neq; lia). reflexivity.
Qed.
Lemma upper_int H : binary H -> (1 <= length (a_rows H) <= a_cols H)%nat -> unit_upper H -> integral (length (a_rows H)) (sys_part H).
Proof.
  intros HB Hmn HL. apply upper_integral; [apply sys_int; assumption| |].
  - intros i Hi. rewrite (sys_entry H HB Hmn), HL by (try assumption; lia). rewrite Nat.eqb_refl. reflexivity.
  - intros i l Hi Hl Hil. rewrite (sys_entry H HB Hmn), HL by (try assumption; lia). replace (i =? l)%nat with false by (symmetry; apply Nat.eqb_neq; lia). reflexivity.
Qed.

Lemma build_ready p H : describes p H -> (1 <= length (a_rows H) < a_cols H)%nat -> integral (length (a_rows H)) (sys_part H) ->
  exists p', build_matrix p = (p', Ok tt) /\ ready p' H.
Proof.
  intros HD Hmn HI. pose proof HD as (HB & _). destruct (build_ok H HB ltac:(lia) p HD) as [(p' & E & HM & HG)|[_ HN]].
  - exists p'. split; [exact E|]. split; assumption.
  - exfalso. apply HN, integral_injective. exact HI.
Qed.

Lemma build_singular p H : describes p H -> (1 <= length (a_rows H) <= a_cols H)%nat -> singular H -> build_matrix p = (set_matrix p H, Err RuntimeError).
Proof.
  intros HD Hmn (z & (l0 & Hl0 & Hz0) & HZ). pose proof HD as (HB & _). destruct (build_ok H HB Hmn p HD) as [(p' & E & HM & B & HInv & HG)|[E _]]; [exfalso|exact E].
  pose proof (inv_matrix_injective _ _ B (proj1 Hmn) (sys_square H HB Hmn) HInv) as HJ. apply Hz0.
  assert (HQ : (inject_Z (z l0) == 0)%Q); [|unfold Qeq in HQ; cbn in HQ; lia]. apply (HJ (fun l => inject_Z (z l))); [|exact Hl0]. intros i Hi.
  rewrite (Qsum_ext _ (fun l => inject_Z (hij (a_rows H) i (a_cols H - length (a_rows H) + l) * z l))).
  - rewrite <- sumto_Q, HZ by exact Hi. reflexivity.
  - intros l Hl. rewrite (sys_entry H HB Hmn) by assumption. rewrite inject_Z_mult. reflexivity.
Qed.
