(* Design files: what write_ldpc_params writes, get_ldpc_code_params reads back. *)
From Coq Require Import Ascii String Decimal DecimalNat DecimalFacts.
From Verif Require Import Base LdpcModel LdpcSpec LdpcProofs.
Open Scope Z_scope.
Notation nth := List.nth.
Notation length := List.length.

(* ---------------------------------------------------------------- numbers *)
Definition is_digit (c : ascii) : bool := existsb (Ascii.eqb c) ["0"; "1"; "2"; "3"; "4"; "5"; "6"; "7"; "8"; "9"]%char.
Lemma uint_digits d : digits (uint_text d) = Some d.
Proof. induction d; cbn [uint_text digits]; try rewrite IHd; reflexivity. Qed.
Lemma uint_all_digits d : Forall (fun c => is_digit c = true) (uint_text d).
Proof. induction d; cbn [uint_text]; constructor; try exact IHd; reflexivity. Qed.
Lemma uint_nonnil d : d <> Nil -> uint_text d <> [].
Proof. destruct d; cbn; congruence. Qed.
Lemma to_uint_nonnil n : Nat.to_uint n <> Nil.
Proof. intros E. pose proof (DecimalNat.Unsigned.of_to n) as H. rewrite E in H. cbn in H. subst n. discriminate. Qed.

Lemma digit_not_space c : is_digit c = true -> is_space c = false.
Proof. destruct c as [b0 b1 b2 b3 b4 b5 b6 b7]. destruct b0, b1, b2, b3, b4, b5, b6, b7; vm_compute; intros H; try reflexivity; discriminate H. Qed.
Lemma digit_neq c x : is_digit c = true -> is_digit x = false -> Ascii.eqb c x = false.
Proof. intros H1 H2. destruct (Ascii.eqb_spec c x) as [-> |]; [congruence|reflexivity]. Qed.

Lemma fmt_digits n : Forall (fun c => is_digit c = true) (fmt_nat n).
Proof. apply uint_all_digits. Qed.
Lemma fmt_cons n : exists c t, fmt_nat n = c :: t /\ is_digit c = true.
Proof.
  pose proof (fmt_digits n) as H. destruct (fmt_nat n) as [|c t] eqn:E; [exfalso; exact (uint_nonnil _ (to_uint_nonnil n) E)|]. inversion H; subst. exists c, t. split; [reflexivity|assumption].
Qed.

Lemma lstrip_digits s : Forall (fun c => is_digit c = true) s -> lstrip s = s.
Proof. destruct s as [|c s]; [reflexivity|]. intros H. inversion H; subst. cbn [lstrip]. rewrite digit_not_space by assumption. reflexivity. Qed.
Lemma lstrip_spaces ws s : Forall (fun c => is_space c = true) ws -> lstrip (ws ++ s) = lstrip s.
Proof. induction 1 as [|c ws H _ IH]; [reflexivity|]. cbn [app lstrip]. rewrite H. exact IH. Qed.
Lemma strip_digits s ws : s <> [] -> Forall (fun c => is_digit c = true) s -> Forall (fun c => is_space c = true) ws -> strip (s ++ ws) = s.
Proof.
  intros Hne Hs Hw. unfold strip. assert (E : lstrip (s ++ ws) = s ++ ws) by (destruct s as [|c s]; [congruence|]; inversion Hs; subst; cbn [app lstrip]; rewrite digit_not_space by assumption; reflexivity).
  rewrite E, rev_app_distr, lstrip_spaces by (apply Forall_rev; exact Hw). rewrite lstrip_digits by (apply Forall_rev; exact Hs). apply rev_involutive.
Qed.
Lemma py_int_fmt n ws : Forall (fun c => is_space c = true) ws -> py_int (fmt_nat n ++ ws) = Ok (Z.of_nat n).
Proof.
  intros Hw. unfold py_int. destruct (fmt_cons n) as (c & t & E & Hc). rewrite strip_digits; [|rewrite E; discriminate|apply fmt_digits|exact Hw]. rewrite E.
  rewrite (digit_neq c "-") by (try exact Hc; reflexivity). rewrite (digit_neq c "+") by (try exact Hc; reflexivity). rewrite <- E. unfold py_nat. rewrite E, <- E. unfold fmt_nat. rewrite uint_digits.
  rewrite DecimalNat.Unsigned.of_to. reflexivity.
Qed.

(* surrounding white space and signs *)
Lemma strip_around s ws ws' : Forall (fun c => is_space c = true) ws -> Forall (fun c => is_space c = true) ws' -> (exists c t, s = c :: t /\ is_space c = false) -> (exists c t, rev s = c :: t /\ is_space c = false) -> strip (ws ++ s ++ ws') = s.
Proof.
  intros Hw Hw' (c & t & E & Hc) (c' & t' & E' & Hc'). unfold strip. rewrite lstrip_spaces by exact Hw.
  assert (E1 : lstrip (s ++ ws') = s ++ ws') by (rewrite E; cbn [app lstrip]; rewrite Hc; reflexivity). rewrite E1, rev_app_distr, lstrip_spaces by (apply Forall_rev; exact Hw').
  rewrite E'. cbn [lstrip]. rewrite Hc', <- E'. apply rev_involutive.
Qed.
Lemma fmt_last n : exists c t, rev (fmt_nat n) = c :: t /\ is_space c = false.
Proof.
  pose proof (Forall_rev (fmt_digits n)) as H. destruct (rev (fmt_nat n)) as [|c t] eqn:E; [destruct (fmt_cons n) as (c & t & F & _); apply (f_equal (@rev _)) in E; rewrite rev_involutive in E; cbn in E; congruence|]. inversion H; subst. exists c, t. split; [reflexivity|apply digit_not_space; assumption].
Qed.
Lemma py_nat_fmt n : py_nat (fmt_nat n) = Ok (Z.of_nat n).
Proof. unfold py_nat. destruct (fmt_cons n) as (c & t & E & _). rewrite E, <- E. unfold fmt_nat. rewrite uint_digits, DecimalNat.Unsigned.of_to. reflexivity. Qed.
Lemma py_int_around n ws ws' : Forall (fun c => is_space c = true) ws -> Forall (fun c => is_space c = true) ws' ->
  py_int (ws ++ fmt_nat n ++ ws') = Ok (Z.of_nat n) /\ py_int (ws ++ ("-"%char :: fmt_nat n) ++ ws') = Ok (- Z.of_nat n) /\ py_int (ws ++ ("+"%char :: fmt_nat n) ++ ws') = Ok (Z.of_nat n).
Proof.
  intros Hw Hw'. destruct (fmt_cons n) as (c & t & E & Hc). destruct (fmt_last n) as (c' & t' & E' & Hc'). unfold py_int. split; [|split].
  - rewrite strip_around; [|exact Hw|exact Hw'|exists c, t; split; [exact E|apply digit_not_space, Hc]|exists c', t'; auto]. rewrite E, (digit_neq c "-"), (digit_neq c "+") by (exact Hc || reflexivity). rewrite <- E. apply py_nat_fmt.
  - rewrite strip_around; [|exact Hw|exact Hw'|exists "-"%char, (fmt_nat n); split; reflexivity|cbn [rev]; rewrite E'; exists c', (t' ++ ["-"%char]); split; [reflexivity|exact Hc']]. cbn [Ascii.eqb Bool.eqb]. rewrite py_nat_fmt. reflexivity.
  - rewrite strip_around; [|exact Hw|exact Hw'|exists "+"%char, (fmt_nat n); split; reflexivity|cbn [rev]; rewrite E'; exists c', (t' ++ ["+"%char]); split; [reflexivity|exact Hc']]. cbn [Ascii.eqb Bool.eqb]. rewrite py_nat_fmt. reflexivity.
Qed.

(* ---------------------------------------------------------------- splitting *)
Definition free (c : ascii) (s : text) : Prop := Forall (fun x => Ascii.eqb x c = false) s.
Lemma split_free c s : free c s -> split c s = [s].
Proof. induction 1 as [|x s H _ IH]; [reflexivity|]. cbn [split]. rewrite H, IH. reflexivity. Qed.
Lemma split_cons c w s : free c w -> split c (w ++ c :: s) = w :: split c s.
Proof. induction 1 as [|x w H _ IH]; cbn [app split]; [rewrite Ascii.eqb_refl; reflexivity|]. rewrite H, IH. reflexivity. Qed.
Lemma free_app c s t : free c s -> free c t -> free c (s ++ t). Proof. intros; apply Forall_app; split; assumption. Qed.
Lemma free_fmt c n : is_digit c = false -> free c (fmt_nat n).
Proof. intros Hc. eapply Forall_impl; [|apply fmt_digits]. intros x Hx. apply digit_neq; assumption. Qed.
Lemma readline_ok l s : free nl l -> readline (l ++ nl :: s) = (l ++ [nl], s).
Proof. induction 1 as [|x l H _ IH]; cbn [app readline]; [rewrite Ascii.eqb_refl; reflexivity|]. rewrite H, IH. reflexivity. Qed.
Lemma free_one c x : Ascii.eqb x c = false -> free c [x]. Proof. intros H. constructor; [exact H|constructor]. Qed.
Lemma nl_space : Forall (fun c => is_space c = true) [nl]. Proof. repeat constructor. Qed.

Lemma split_fields c (l : list nat) tail : is_digit c = false -> free c tail -> split c (flat_map (fun v => fmt_nat v ++ [c]) l ++ tail) = map fmt_nat l ++ [tail].
Proof.
  intros Hc Ht. induction l as [|v l IH]; cbn [flat_map map app]; [apply split_free; exact Ht|]. rewrite <- !app_assoc. cbn [app]. rewrite split_cons by (apply free_fmt; exact Hc). rewrite IH. reflexivity.
Qed.
Lemma free_fields c d (l : list nat) : is_digit c = false -> Ascii.eqb d c = false -> free c (flat_map (fun v => fmt_nat v ++ [d]) l).
Proof. intros Hc Hd. induction l as [|v l IH]; [constructor|]. cbn [flat_map]. apply free_app; [apply free_app; [apply free_fmt; exact Hc|apply free_one; exact Hd]|exact IH]. Qed.

Lemma mapM_int l : mapM py_int (map fmt_nat l) = Ok (map Z.of_nat l).
Proof. induction l as [|n l IH]; [reflexivity|]. cbn [map mapM]. rewrite <- (app_nil_r (fmt_nat n)) at 1. rewrite py_int_fmt by constructor. cbn [bind]. rewrite IH. reflexivity. Qed.

Lemma pair_line_ok n m : pair_line ((fmt_nat n ++ [sp] ++ fmt_nat m) ++ [nl]) = Ok (Z.of_nat n, Z.of_nat m).
Proof.
  unfold pair_line. replace ((fmt_nat n ++ [sp] ++ fmt_nat m) ++ [nl]) with (flat_map (fun v => fmt_nat v ++ [sp]) [n] ++ (fmt_nat m ++ [nl])) by (cbn [flat_map]; rewrite app_nil_r, <- !app_assoc; reflexivity).
  rewrite split_fields by (first [reflexivity|apply free_app; [apply free_fmt; reflexivity|apply free_one; reflexivity]]). cbn [map app mapM].
  rewrite <- (app_nil_r (fmt_nat n)) at 1. rewrite (py_int_fmt n []) by constructor. rewrite (py_int_fmt m [nl]) by apply nl_space. reflexivity.
Qed.
Lemma to_int32_ok l : Forall (fun n => Z.of_nat n < 2 ^ 31) l -> mapM to_int32 (map Z.of_nat l) = Ok (map Z.of_nat l).
Proof.
  induction 1 as [|n l H _ IH]; [reflexivity|]. cbn [map mapM]. unfold to_int32 at 1. replace ((- 2 ^ 31 <=? Z.of_nat n) && (Z.of_nat n <? 2 ^ 31)) with true by lia. cbn [bind]. rewrite IH. reflexivity.
Qed.
Lemma deg_line_ok l : Forall (fun n => Z.of_nat n < 2 ^ 31) l -> deg_line (flat_map (fun v => fmt_nat v ++ [sp]) l ++ [nl]) = Ok (map Z.of_nat l).
Proof.
  intros H. unfold deg_line. rewrite split_fields by (first [reflexivity|apply free_one; reflexivity]). rewrite removelast_last, mapM_int. cbn [bind]. apply to_int32_ok. exact H.
Qed.

(* ---------------------------------------------------------------- node lines *)
Lemma node_line_ok nodes : nodes <> [] -> exists t, node_line nodes = Some (t ++ [nl]) /\ free nl t /\
  mapM (fun x => y <- py_int x ;; Ok (y - 1)) (split tab (t ++ [nl])) = Ok (map Z.of_nat nodes).
Proof.
  intros Hne. destruct (exists_last Hne) as (l & z & ->). exists (flat_map (fun v => fmt_nat v ++ [tab]) (map (fun v => (v + 1)%nat) l) ++ fmt_nat (z + 1)).
  assert (Efm : flat_map (fun v : nat => fmt_nat (v + 1) ++ [tab]) l = flat_map (fun v => fmt_nat v ++ [tab]) (map (fun v => (v + 1)%nat) l)).
  { clear. induction l as [|v l IH]; [reflexivity|]. cbn [flat_map map]. rewrite IH. reflexivity. }
  split; [unfold node_line; rewrite rev_app_distr; cbn [rev app]; rewrite removelast_last, Efm, <- app_assoc; reflexivity|].
  split; [apply free_app; [apply free_fields; reflexivity|apply free_fmt; reflexivity]|].
  rewrite <- app_assoc. rewrite split_fields by (first [reflexivity|apply free_app; [apply free_fmt; reflexivity|apply free_one; reflexivity]]).
  assert (G : forall l0, mapM (fun x => y <- py_int x ;; Ok (y - 1)) (map fmt_nat (map (fun v => (v + 1)%nat) l0) ++ [fmt_nat (z + 1) ++ [nl]]) = Ok (map Z.of_nat l0 ++ [Z.of_nat z])).
  { induction l0 as [|v l0 IH]; cbn [map app mapM]; [rewrite py_int_fmt by apply nl_space; cbn [bind]; do 3 f_equal; lia|].
    rewrite <- (app_nil_r (fmt_nat (v + 1))) at 1. rewrite py_int_fmt by constructor. cbn [bind]. rewrite IH. cbn [bind]. do 3 f_equal; lia. }
  rewrite G, map_app. reflexivity.
Qed.
Lemma node_lines_ok ls : Forall (fun l => nonzero l <> []) ls -> exists t, node_lines ls = (t, None) /\
  forall i w rest degs, (forall j, (j < length ls)%nat -> nth (i + j) degs 0 = Z.of_nat (length (nonzero (nth j ls []))) /\ (length (nonzero (nth j ls [])) <= w)%nat) -> (i + length ls <= length degs)%nat ->
    adj_rows degs w i (length ls) (t ++ rest) = Ok (map (fun l => map Z.of_nat (nonzero l) ++ repeat (-1) (w - length (nonzero l))) ls, rest).
Proof.
  induction 1 as [|l ls Hl _ (t & E & IH)]; [exists []; split; [reflexivity|]; intros; reflexivity|].
  destruct (node_line_ok _ Hl) as (t0 & E0 & Hf & Hm). exists ((t0 ++ [nl]) ++ t). cbn [node_lines]. rewrite E0, E. split; [reflexivity|].
  intros i w rest degs Hd Hlen. cbn [length adj_rows] in *. rewrite <- !app_assoc. cbn [app]. rewrite readline_ok by exact Hf. rewrite Hm. cbn [bind].
  destruct (Hd 0%nat ltac:(lia)) as [Hd0 Hw0]. rewrite Nat.add_0_r in Hd0. cbn [nth] in Hd0, Hw0. rewrite (py_get_ok _ _ 0) by lia. rewrite Hd0. cbn [bind].
  set (nz := nonzero l) in *. unfold assign_prefix, upto. replace (Z.of_nat (length nz) <? 0) with false by lia. rewrite Nat2Z.id, firstn_length, repeat_length, map_length.
  replace (Nat.min (length nz) w) with (length nz) by lia. rewrite Nat.eqb_refl. cbn [bind].
  rewrite (IH (i + 1)%nat) by (try lia; intros j Hj; specialize (Hd (S j) ltac:(lia)); cbn [nth] in Hd; replace (i + 1 + j)%nat with (i + S j)%nat by lia; exact Hd). reflexivity.
Qed.
Lemma node_lines_err ls : Exists (fun l => nonzero l = []) ls -> snd (node_lines ls) = Some IndexError.
Proof.
  induction 1 as [l ls Hl|l ls _ IH]; cbn [node_lines]; [rewrite Hl; reflexivity|]. destruct (node_line (nonzero l)); [|reflexivity]. destruct (node_lines ls) as [ts e]. exact IH.
Qed.

(* ---------------------------------------------------------------- degrees *)
Lemma nonzero_In l i : In i (nonzero l) <-> (i < length l)%nat /\ nth i l 0 <> 0.
Proof. unfold nonzero. rewrite filter_In, in_seq. split; intros [H1 H2]; split; lia. Qed.
Lemma nonzero_NoDup l : NoDup (nonzero l). Proof. apply NoDup_filter, seq_NoDup. Qed.
Lemma nonzero_cons a l : length (nonzero (a :: l)) = ((if (a =? 0)%Z then 0 else 1) + length (nonzero l))%nat.
Proof.
  assert (E : forall (f g : nat -> bool) s, (forall i, f (S i) = g i) -> length (filter f (map S s)) = length (filter g s)).
  { intros f g s H. induction s as [|x s IH]; [reflexivity|]. cbn [map filter]. rewrite H. destruct (g x); cbn [length]; rewrite IH; reflexivity. }
  unfold nonzero. cbn [length seq]. rewrite <- seq_shift. cbn [filter].
  replace (negb (nth 0 (a :: l) 0 =? 0)) with (negb (a =? 0)) by reflexivity. specialize (E (fun i => negb (nth i (a :: l) 0 =? 0)) (fun i => negb (nth i l 0 =? 0)) (seq 0 (length l)) (fun i => eq_refl)).
  destruct (a =? 0); cbn [negb length]; rewrite E; reflexivity.
Qed.
Lemma Zsum_degree l : bits l -> Zsum l = Z.of_nat (length (nonzero l)).
Proof. induction 1 as [|a l Ha _ IH]; [reflexivity|]. rewrite Zsum_cons, nonzero_cons, IH. destruct Ha as [-> | ->]; cbn [Z.eqb]; lia. Qed.
Lemma nonzero_length l : (length (nonzero l) <= length l)%nat.
Proof. induction l as [|a l IH]; [cbn; lia|]. rewrite nonzero_cons. cbn [length]. destruct (a =? 0); lia. Qed.
Lemma py_max_ok l : l <> [] -> exists m, py_max l = Ok m /\ In m l /\ forall x, In x l -> x <= m.
Proof.
  destruct l as [|a l]; [congruence|]. intros _. exists (fold_left Z.max l a). split; [reflexivity|]. revert a. induction l as [|b l IH]; intros a; [split; [left; reflexivity|intros x [<-|[]]; cbn [fold_left]; apply Z.le_refl]|].
  cbn [fold_left]. destruct (IH (Z.max a b)) as [H1 H2]. split.
  - destruct H1 as [H1|H1]; [|right; right; exact H1]. cbn [fold_left]. rewrite <- H1. destruct (Z.max_spec a b) as [[_ ->]|[_ ->]]; [right; left; reflexivity|left; reflexivity].
  - intros x [<-|[<-|Hx]]; [| |apply H2; right; exact Hx]; pose proof (H2 (Z.max a b) (or_introl eq_refl)); lia.
Qed.
Lemma fmt_int_nat n : fmt_int (Z.of_nat n) = fmt_nat n.
Proof. unfold fmt_int. replace (Z.of_nat n <? 0) with false by lia. rewrite Nat2Z.id. reflexivity. Qed.

(* ---------------------------------------------------------------- index maps *)
Lemma filter_unique (f : nat -> bool) n q : (q < n)%nat -> f q = true -> (forall i, (i < n)%nat -> i <> q -> f i = false) -> filter f (seq 0 n) = [q].
Proof.
  intros Hq Hf Ho. replace n with (q + (1 + (n - q - 1)))%nat by lia. rewrite seq_app, filter_app. cbn [Nat.add seq filter]. rewrite Hf.
  assert (E : forall l, (forall i, In i l -> f i = false) -> filter f l = []).
  { induction l as [|x l IH]; intros H; [reflexivity|]. cbn [filter]. rewrite H by (left; reflexivity). apply IH. intros i Hi. apply H. right. exact Hi. }
  rewrite !E; [reflexivity| |]; intros i Hi; apply in_seq in Hi; apply Ho; lia.
Qed.
Definition padded (w : nat) (l : list nat) : list Z := map Z.of_nat l ++ repeat (-1) (w - length l).
Lemma padded_length w l : (length l <= w)%nat -> length (padded w l) = w.
Proof. intros H. unfold padded. rewrite app_length, map_length, repeat_length. lia. Qed.
Lemma padded_nth w l i : (i < length l)%nat -> nth i (padded w l) (-1) = Z.of_nat (nth i l 0%nat).
Proof. intros H. unfold padded. rewrite app_nth1 by (rewrite map_length; exact H). apply nth_map_lt. exact H. Qed.

Lemma where_one_ok w l a : NoDup l -> In a l -> exists q, where_one (padded w l) (Z.of_nat a) = Ok (Z.of_nat q) /\ (q < length l)%nat /\ nth q l 0%nat = a.
Proof.
  intros HN Ha. apply (In_nth _ _ 0%nat) in Ha. destruct Ha as (q & Hq & Eq). exists q. split; [|split; assumption]. unfold where_one.
  assert (Hp : forall i, (i < length l)%nat -> nth i (padded w l) 0 = Z.of_nat (nth i l 0%nat)).
  { intros i Hi. rewrite <- (padded_nth w) by exact Hi. apply nth_indep. unfold padded. rewrite app_length, map_length. lia. }
  rewrite (filter_unique _ _ q); [reflexivity|unfold padded; rewrite app_length, map_length; lia|rewrite Hp, Eq by exact Hq; apply Z.eqb_refl|].
  intros i Hi Hne. destruct (Nat.lt_ge_cases i (length l)) as [Hlt|Hge].
  - rewrite Hp by exact Hlt. apply Z.eqb_neq. intros E. apply Nat2Z.inj in E. apply Hne. apply (proj1 (NoDup_nth l 0%nat) HN); [exact Hlt|exact Hq|congruence].
  - unfold padded in Hi |- *. rewrite app_length, map_length, repeat_length in Hi. rewrite app_nth2, map_length by (rewrite map_length; exact Hge). rewrite nth_repeat_lt by lia. apply Z.eqb_neq. lia.
Qed.

Lemma mapM_exists {A B} (f : A -> res B) (P : A -> B -> Prop) l d d' : (forall i, (i < length l)%nat -> exists y, f (nth i l d) = Ok y /\ P (nth i l d) y) ->
  exists r, mapM f l = Ok r /\ length r = length l /\ forall i, (i < length l)%nat -> P (nth i l d) (nth i r d').
Proof.
  induction l as [|a l IH]; intros H; [exists []; repeat split; intros i Hi; cbn in Hi; lia|]. destruct (H 0%nat ltac:(cbn; lia)) as (y & E & Hy). cbn [nth] in E, Hy.
  destruct IH as (r & E2 & Hl & HP); [intros i Hi; apply (H (S i)); cbn; lia|]. exists (y :: r). cbn [mapM]. rewrite E. cbn [bind]. rewrite E2. split; [reflexivity|]. split; [cbn; lia|].
  intros [|i] Hi; cbn [nth]; [exact Hy|]. apply HP. cbn in Hi. lia.
Qed.

Lemma choose_list {X Y} (f : Y -> X) (P : nat -> Y -> Prop) (r : list X) d d' : (forall a, (a < length r)%nat -> exists M, nth a r d = f M /\ P a M) ->
  exists Ms, r = map f Ms /\ length Ms = length r /\ forall a, (a < length r)%nat -> P a (nth a Ms d').
Proof.
  revert P. induction r as [|x r IH]; intros P H; [exists []; repeat split; intros a Ha; cbn in Ha; lia|].
  destruct (H 0%nat ltac:(cbn; lia)) as (M0 & E0 & H0). destruct (IH (fun a => P (S a))) as (M & E & HL & HM); [intros a Ha; apply (H (S a)); cbn; lia|].
  exists (M0 :: M). cbn [nth] in E0. split; [cbn [map]; rewrite E0, E; reflexivity|]. split; [cbn; lia|]. intros [|a] Ha; cbn [nth]; [exact H0|]. apply HM. cbn in Ha. lia.
Qed.
Lemma build_map_ok (A B : list (list nat)) wA wB :
  (forall a i, (a < length A)%nat -> (i < length (nth a A []))%nat -> (nth i (nth a A []) 0 < length B)%nat /\ In a (nth (nth i (nth a A []) 0%nat) B [])) ->
  (forall b, (b < length B)%nat -> NoDup (nth b B [])) ->
  exists M, build_map (map (padded wA) A) (map (padded wB) B) (map (fun l => Z.of_nat (length l)) A) (length A) wA = Ok (map (padded wA) M) /\ length M = length A /\
    forall a, (a < length A)%nat -> length (nth a M []) = length (nth a A []) /\
      forall i, (i < length (nth a A []))%nat -> let b := nth i (nth a A []) 0%nat in let q := nth i (nth a M []) 0%nat in (q < length (nth b B []))%nat /\ nth q (nth b B []) 0%nat = a.
Proof.
  intros HA HB. unfold build_map.
  destruct (mapM_exists (fun a => d <- py_get (map (fun l => Z.of_nat (length l)) A) (Z.of_nat a) ;; let nb := upto (nth a (map (padded wA) A) []) d in
          l <- mapM (fun b => row <- py_get (map (padded wB) B) b ;; where_one row (Z.of_nat a)) nb ;; Ok (l ++ repeat (-1) (wA - length l)))
      (fun a r => exists M, r = padded wA M /\ length M = length (nth a A []) /\ forall i, (i < length (nth a A []))%nat -> let b := nth i (nth a A []) 0%nat in let q := nth i M 0%nat in (q < length (nth b B []))%nat /\ nth q (nth b B []) 0%nat = a)
      (seq 0 (length A)) 0%nat []) as (r & E & Hl & HP).
  { intros a Ha. rewrite seq_length in Ha. rewrite seq_nth by exact Ha. cbn [Nat.add]. rewrite (py_get_ok _ _ 0) by (rewrite map_length; exact Ha). rewrite (nth_map_lt _ A a []) by exact Ha. cbn [bind]. cbv zeta.
    rewrite (nth_map_lt (padded wA) A a []) by exact Ha. set (nb := nth a A []) in *.
    assert (Eu : upto (padded wA nb) (Z.of_nat (length nb)) = map Z.of_nat nb).
    { unfold upto. replace (Z.of_nat (length nb) <? 0) with false by lia. rewrite Nat2Z.id. unfold padded. rewrite firstn_app, map_length, Nat.sub_diag. cbn [firstn]. rewrite app_nil_r. rewrite <- (map_length Z.of_nat nb). apply firstn_all. }
    rewrite Eu.
    destruct (mapM_exists (fun b => row <- py_get (map (padded wB) B) b ;; where_one row (Z.of_nat a))
        (fun z q => exists q', q = Z.of_nat q' /\ (q' < length (nth (Z.to_nat z) B []))%nat /\ nth q' (nth (Z.to_nat z) B []) 0%nat = a) (map Z.of_nat nb) 0 (-1)) as (r & E & Hl & HP).
    { intros i Hi. rewrite map_length in Hi. rewrite (nth_map_lt Z.of_nat nb i 0%nat) by exact Hi. destruct (HA a i Ha Hi) as [Hb Hin]. fold nb in Hb, Hin. set (b := nth i nb 0%nat) in *.
      rewrite (py_get_ok _ _ []) by (rewrite map_length; exact Hb). rewrite (nth_map_lt (padded wB) B b []) by exact Hb. cbn [bind]. destruct (where_one_ok wB _ a (HB b Hb) Hin) as (q & Eq & Hq1 & Hq2).
      exists (Z.of_nat q). split; [exact Eq|]. exists q. rewrite Nat2Z.id. auto. }
    rewrite E. cbn [bind]. rewrite map_length in Hl, HP. eexists. split; [reflexivity|]. exists (map Z.to_nat r).
    assert (Er : r = map Z.of_nat (map Z.to_nat r)).
    { rewrite map_map. rewrite <- (map_id r) at 1. apply map_ext_in. intros x Hx. apply (In_nth _ _ (-1)) in Hx. destruct Hx as (i & Hi & <-). rewrite Hl in Hi. destruct (HP i Hi) as (q' & -> & _). rewrite Nat2Z.id. reflexivity. }
    split; [unfold padded; rewrite map_length; rewrite <- Er; reflexivity|]. split; [rewrite map_length; exact Hl|]. intros i Hi. destruct (HP i Hi) as (q' & Eq & Hq). rewrite (nth_map_lt Z.of_nat nb i 0%nat) in Hq by exact Hi. rewrite Nat2Z.id in Hq.
    rewrite (nth_map_lt Z.to_nat r i (-1)) by lia. rewrite Eq, Nat2Z.id. exact Hq. }
  cbv zeta in E |- *. rewrite E. rewrite seq_length in Hl, HP.
  assert (HM : exists M, r = map (padded wA) M /\ length M = length r /\ forall a, (a < length r)%nat -> length (nth a M []) = length (nth a A []) /\
      forall i, (i < length (nth a A []))%nat -> let b := nth i (nth a A []) 0%nat in let q := nth i (nth a M []) 0%nat in (q < length (nth b B []))%nat /\ nth q (nth b B []) 0%nat = a).
  { assert (HP' : forall a, (a < length r)%nat -> exists M, nth a r [] = padded wA M /\ length M = length (nth a A []) /\ forall i, (i < length (nth a A []))%nat -> let b := nth i (nth a A []) 0%nat in let q := nth i M 0%nat in (q < length (nth b B []))%nat /\ nth q (nth b B []) 0%nat = a).
    { intros a Ha. specialize (HP a ltac:(lia)). rewrite seq_nth in HP by lia. exact HP. }
    exact (choose_list (padded wA) _ r [] [] HP'). }
  destruct HM as (M & -> & HL & HM). rewrite map_length in *. exists M. split; [reflexivity|]. split; [lia|]. intros a Ha. apply HM. lia.
Qed.

(* ---------------------------------------------------------------- the round trip *)
Lemma concat_entry {A} (rows : list (list A)) w c i d : Forall (fun r => length r = w) rows -> (c < length rows)%nat -> (i < w)%nat -> nth (c * w + i) (concat rows) d = nth i (nth c rows []) d.
Proof.
  intros H. revert c. induction H as [|r rows Hr _ IH]; intros c Hc Hi; [cbn in Hc; lia|]. cbn [concat]. destruct c as [|c]; cbn [nth Nat.mul Nat.add]; [apply app_nth1; lia|].
  rewrite app_nth2 by lia. replace (w + c * w + i - length r)%nat with (c * w + i)%nat by lia. apply IH; [cbn in Hc; lia|exact Hi].
Qed.
Lemma concat_length_w {A} (rows : list (list A)) w : Forall (fun r => length r = w) rows -> length (concat rows) = (length rows * w)%nat.
Proof. induction 1 as [|r rows Hr _ IH]; [reflexivity|]. cbn [concat length Nat.mul]. rewrite app_length, IH. lia. Qed.
Lemma wrap32_id x : -1 <= x < 2 ^ 31 -> wrap32 x = x.
Proof. intros H. unfold wrap32. rewrite Z.mod_small by lia. lia. Qed.
Lemma map_wrap_id l : (forall x, In x l -> -1 <= x < 2 ^ 31) -> map wrap32 l = l.
Proof. intros H. rewrite <- (map_id l) at 2. apply map_ext_in. intros x Hx. apply wrap32_id, H, Hx. Qed.
Lemma padded_range w l b : (forall x, In x l -> (x < b)%nat) -> Z.of_nat b <= 2 ^ 31 -> forall x, In x (padded w l) -> -1 <= x < 2 ^ 31.
Proof.
  intros H Hb x Hx. unfold padded in Hx. apply in_app_or in Hx. destruct Hx as [Hx|Hx]; [|apply repeat_spec in Hx; lia]. apply in_map_iff in Hx. destruct Hx as (y & <- & Hy). specialize (H y Hy). lia.
Qed.

Section File.
  Variable H : arr2.
  Hypothesis HB : binary H.
  Local Notation n := (a_cols H).
  Local Notation m := (length (a_rows H)).
  Hypothesis Hm : (1 <= m)%nat.
  Hypothesis Hn : (1 <= n)%nat.
  Hypothesis Hm32 : Z.of_nat m < 2 ^ 31.
  Hypothesis Hn32 : Z.of_nat n < 2 ^ 31.
  Hypothesis HR : no_zero_row H.
  Hypothesis HC : no_zero_column H.

  Definition rowsN := map nonzero (a_rows H).
  Definition colsN := map nonzero (columns H).
  Definition width (l : list (list nat)) : nat := fold_right Nat.max 0%nat (map (@length nat) l).

  Lemma width_ge l x : In x l -> (length x <= width l)%nat.
  Proof. clear. unfold width. induction l as [|y l IH]; [intros []|]. cbn [map fold_right]. intros [->|Hx]; [lia|specialize (IH Hx); lia]. Qed.

  Lemma row_length i : (i < m)%nat -> length (nth i (a_rows H) []) = n.
  Proof. intros Hi. apply (proj1 (Forall_forall _ _) (proj1 HB)), nth_In. exact Hi. Qed.
  Lemma columns_length : length (columns H) = n. Proof. unfold columns. apply map_seq_length. Qed.
  Lemma column_nth j : (j < n)%nat -> nth j (columns H) [] = column j (a_rows H).
  Proof. intros Hj. unfold columns. apply (nth_map_seq (fun j => column j (a_rows H))). exact Hj. Qed.
  Lemma column_entry j i : (i < m)%nat -> nth i (column j (a_rows H)) 0 = hij (a_rows H) i j.
  Proof. intros Hi. unfold column. rewrite (nth_map_lt _ _ i []) by exact Hi. reflexivity. Qed.
  Lemma column_length j : length (column j (a_rows H)) = m. Proof. unfold column. apply map_length. Qed.
  Lemma entry_bit i j : is_bit (hij (a_rows H) i j).
  Proof.
    unfold hij. destruct (Nat.lt_ge_cases i m) as [Hi|Hi]; [|rewrite (nth_overflow (a_rows H)) by exact Hi; destruct j; left; reflexivity].
    apply bits_nth, (proj1 (Forall_forall _ _) (proj2 HB)), nth_In. exact Hi.
  Qed.
  Lemma column_bits j : bits (column j (a_rows H)).
  Proof. apply bits_of_nth. intros i Hi. rewrite column_length in Hi. rewrite column_entry by exact Hi. apply entry_bit. Qed.

  Lemma rowsN_length : length rowsN = m. Proof. unfold rowsN. apply map_length. Qed.
  Lemma colsN_length : length colsN = n. Proof. unfold colsN. rewrite map_length. apply columns_length. Qed.
  Lemma rowsN_nth c : (c < m)%nat -> nth c rowsN [] = nonzero (nth c (a_rows H) []).
  Proof. intros Hc. unfold rowsN. apply nth_map_lt. exact Hc. Qed.
  Lemma colsN_nth v : (v < n)%nat -> nth v colsN [] = nonzero (column v (a_rows H)).
  Proof. intros Hv. unfold colsN. rewrite (nth_map_lt nonzero (columns H) v []) by (rewrite columns_length; exact Hv). rewrite column_nth by exact Hv. reflexivity. Qed.
  Lemma rowsN_In c v : (c < m)%nat -> In v (nth c rowsN []) <-> (v < n)%nat /\ hij (a_rows H) c v = 1.
  Proof.
    intros Hc. rewrite rowsN_nth by exact Hc. rewrite nonzero_In, row_length by exact Hc. fold (hij (a_rows H) c v). destruct (entry_bit c v) as [E|E]; rewrite E; intuition lia.
  Qed.
  Lemma colsN_In c v : (v < n)%nat -> In c (nth v colsN []) <-> (c < m)%nat /\ hij (a_rows H) c v = 1.
  Proof.
    intros Hv. rewrite colsN_nth by exact Hv. rewrite nonzero_In, column_length. split; intros [H1 H2]; (split; [exact H1|]); rewrite column_entry in * by exact H1; destruct (entry_bit c v) as [E|E]; rewrite E in *; lia.
  Qed.
  Lemma rows_deg : map Zsum (a_rows H) = map Z.of_nat (map (@length nat) rowsN).
  Proof. unfold rowsN. rewrite !map_map. apply map_ext_in. intros l Hl. apply Zsum_degree. apply (proj1 (Forall_forall _ _) (proj2 HB)). exact Hl. Qed.
  Lemma cols_deg : map Zsum (columns H) = map Z.of_nat (map (@length nat) colsN).
  Proof.
    unfold colsN. rewrite !map_map. apply map_ext_in. intros l Hl. apply Zsum_degree. unfold columns in Hl. apply in_map_iff in Hl. destruct Hl as (j & <- & _). apply column_bits.
  Qed.
  Lemma max_width l : l <> [] -> py_max (map Z.of_nat (map (@length nat) l)) = Ok (Z.of_nat (width l)).
  Proof.
    clear. intros Hne. destruct (py_max_ok (map Z.of_nat (map (@length nat) l))) as (x & E & Hin & Hge); [destruct l; cbn; congruence|]. rewrite E. f_equal.
    apply in_map_iff in Hin. destruct Hin as (y & <- & Hy). apply in_map_iff in Hy. destruct Hy as (z & <- & Hz). f_equal. apply Nat.le_antisymm; [apply width_ge; exact Hz|].
    assert (G : forall b, (forall w, In w l -> (length w <= b)%nat) -> (width l <= b)%nat).
    { clear. intros b. unfold width. induction l as [|y l IH]; intros Hb; cbn [map fold_right]; [lia|]. apply Nat.max_lub; [apply Hb; left; reflexivity|apply IH; intros w Hw; apply Hb; right; exact Hw]. }
    apply G. intros w Hw. apply Nat2Z.inj_le. apply Hge. apply in_map, in_map. exact Hw.
  Qed.
  Lemma rows_nonempty : Forall (fun l => nonzero l <> []) (a_rows H).
  Proof.
    apply Forall_forall. intros l Hl. apply (In_nth _ _ []) in Hl. destruct Hl as (i & Hi & <-). destruct (HR i Hi) as (j & Hj & Hne). intros E.
    assert (Hin : In j (nonzero (nth i (a_rows H) []))) by (apply nonzero_In; rewrite row_length by exact Hi; split; [exact Hj|exact Hne]). rewrite E in Hin. destruct Hin.
  Qed.
  Lemma cols_nonempty : Forall (fun l => nonzero l <> []) (columns H).
  Proof.
    apply Forall_forall. intros l Hl. unfold columns in Hl. apply in_map_iff in Hl. destruct Hl as (j & <- & Hj). apply in_seq in Hj. destruct (HC j ltac:(lia)) as (i & Hi & Hne). intros E.
    assert (Hin : In i (nonzero (column j (a_rows H)))) by (apply nonzero_In; rewrite column_length; split; [exact Hi|rewrite column_entry by exact Hi; exact Hne]). rewrite E in Hin. destruct Hin.
  Qed.
  Lemma rowsN_le c : (c < m)%nat -> (length (nth c rowsN []) <= n)%nat.
  Proof. intros Hc. rewrite rowsN_nth by exact Hc. rewrite <- (row_length c Hc). apply nonzero_length. Qed.
  Lemma colsN_le v : (v < n)%nat -> (length (nth v colsN []) <= m)%nat.
  Proof. intros Hv. rewrite colsN_nth by exact Hv. rewrite <- (column_length v). apply nonzero_length. Qed.

  Local Notation dv := (width colsN).
  Local Notation dc := (width rowsN).

  Lemma flat_fmt l : flat_map (fun d => fmt_int d ++ [sp]) (map Z.of_nat l) = flat_map (fun v => fmt_nat v ++ [sp]) l.
  Proof. clear. induction l as [|x l IH]; [reflexivity|]. cbn [map flat_map]. rewrite fmt_int_nat, IH. reflexivity. Qed.

  Definition result (cm vm : list (list nat)) : ldpc :=
    {| n_vnodes := n; n_cnodes := m; max_vdeg := dv; max_cdeg := dc; v_adj := concat (map (padded dv) colsN); c_adj := concat (map (padded dc) rowsN);
       c_map := concat (map (padded dc) cm); v_map := concat (map (padded dv) vm); v_deg := map (fun l => Z.of_nat (length l)) colsN; c_deg := map (fun l => Z.of_nat (length l)) rowsN;
       p_matrix := None; p_gen := None |}.

  Definition good_map (A B M : list (list nat)) : Prop :=
    length M = length A /\ forall a, (a < length A)%nat -> length (nth a M []) = length (nth a A []) /\
      forall i, (i < length (nth a A []))%nat -> let b := nth i (nth a A []) 0%nat in let q := nth i (nth a M []) 0%nat in (q < length (nth b B []))%nat /\ nth q (nth b B []) 0%nat = a.

  Lemma wrap_concat w A b : Forall (fun l => forall x, In x l -> (x < b)%nat) A -> Z.of_nat b <= 2 ^ 31 -> map wrap32 (concat (map (padded w) A)) = concat (map (padded w) A).
  Proof.
    clear. intros HA Hb. apply map_wrap_id. intros x Hx. apply in_concat in Hx. destruct Hx as (l & Hl & Hx). apply in_map_iff in Hl. destruct Hl as (y & <- & Hy).
    apply (padded_range w y b); [exact (proj1 (Forall_forall _ _) HA y Hy)|exact Hb|exact Hx].
  Qed.
  Lemma good_bound A B M b : good_map A B M -> (forall a i, (a < length A)%nat -> (i < length (nth a A []))%nat -> (length (nth (nth i (nth a A []) 0%nat) B []) <= b)%nat) -> Forall (fun l => forall x, In x l -> (x < b)%nat) M.
  Proof.
    clear. intros [HL HM] HBl. apply Forall_forall. intros l Hl x Hx. apply (In_nth _ _ []) in Hl. destruct Hl as (a & Ha & <-). rewrite HL in Ha. destruct (HM a Ha) as [H1 H2].
    apply (In_nth _ _ 0%nat) in Hx. destruct Hx as (i & Hi & <-). rewrite H1 in Hi. destruct (H2 i Hi) as [H3 _]. specialize (HBl a i Ha Hi). cbv zeta in H3. lia.
  Qed.

  Lemma file_ok : exists t cm vm, ldpc_text H = (t, None) /\ parse_ldpc t = Ok (result cm vm) /\ good_map rowsN colsN cm /\ good_map colsN rowsN vm.
  Proof.
    destruct (node_lines_ok _ cols_nonempty) as (tv & Ev & Av). destruct (node_lines_ok _ rows_nonempty) as (tc & Ec & Ac).
    assert (Hrne : rowsN <> []) by (intros E; pose proof rowsN_length as Hq; rewrite E in Hq; cbn in Hq; lia).
    assert (Hcne : colsN <> []) by (intros E; pose proof colsN_length as Hq; rewrite E in Hq; cbn in Hq; lia).
    destruct (build_map_ok rowsN colsN dc dv) as (cm & Ecm & Hcm).
    { intros c i Hc Hi. rewrite rowsN_length in Hc. pose proof (nth_In _ 0%nat Hi) as Hin. apply rowsN_In in Hin; [|exact Hc]. rewrite colsN_length. split; [apply Hin|]. apply colsN_In; [apply Hin|]. split; [exact Hc|apply Hin]. }
    { intros b Hb. rewrite colsN_length in Hb. rewrite colsN_nth by exact Hb. apply nonzero_NoDup. }
    destruct (build_map_ok colsN rowsN dv dc) as (vm & Evm & Hvm).
    { intros v i Hv Hi. rewrite colsN_length in Hv. pose proof (nth_In _ 0%nat Hi) as Hin. apply colsN_In in Hin; [|exact Hv]. rewrite rowsN_length. split; [apply Hin|]. apply rowsN_In; [apply Hin|]. split; [exact Hv|apply Hin]. }
    { intros b Hb. rewrite rowsN_length in Hb. rewrite rowsN_nth by exact Hb. apply nonzero_NoDup. }
    fold (good_map rowsN colsN cm) in Hcm. fold (good_map colsN rowsN vm) in Hvm.
    assert (Edeg : forall A : list (list nat), map Z.of_nat (map (@length nat) A) = map (fun l => Z.of_nat (length l)) A) by (intros A; apply map_map).
    eexists. exists cm, vm. unfold ldpc_text. rewrite rows_deg, cols_deg, !max_width by assumption. rewrite Ev, Ec. split; [reflexivity|]. split; [|split; assumption].
    rewrite !fmt_int_nat, !flat_fmt.
    set (l1 := fmt_nat n ++ [sp] ++ fmt_nat m). set (l2 := fmt_nat dv ++ [sp] ++ fmt_nat dc).
    set (l3 := flat_map (fun v => fmt_nat v ++ [sp]) (map (@length nat) colsN)). set (l4 := flat_map (fun v => fmt_nat v ++ [sp]) (map (@length nat) rowsN)).
    match goal with |- parse_ldpc ?t = _ => replace t with (l1 ++ nl :: (l2 ++ nl :: (l3 ++ nl :: (l4 ++ nl :: (tv ++ (tc ++ [nl])))))) end.
    2: { unfold l1, l2, l3, l4. rewrite <- !app_assoc. cbn [app]. rewrite <- ?app_assoc. reflexivity. }
    assert (F1 : free nl l1) by (apply free_app; [apply free_fmt; reflexivity|apply free_app; [apply free_one; reflexivity|apply free_fmt; reflexivity]]).
    assert (F2 : free nl l2) by (apply free_app; [apply free_fmt; reflexivity|apply free_app; [apply free_one; reflexivity|apply free_fmt; reflexivity]]).
    assert (F3 : free nl l3) by (apply free_fields; reflexivity). assert (F4 : free nl l4) by (apply free_fields; reflexivity).
    unfold parse_ldpc. rewrite readline_ok by exact F1. unfold l1. rewrite pair_line_ok. cbn [bind]. rewrite readline_ok by exact F2. unfold l2. rewrite pair_line_ok. cbn [bind].
    rewrite readline_ok by exact F3. unfold l3. rewrite deg_line_ok.
    2: { apply Forall_forall. intros x Hx. apply in_map_iff in Hx. destruct Hx as (l & <- & Hl). apply (In_nth _ _ []) in Hl. destruct Hl as (v & Hv & <-). rewrite colsN_length in Hv. pose proof (colsN_le v Hv). lia. }
    cbn [bind]. rewrite readline_ok by exact F4. unfold l4. rewrite deg_line_ok.
    2: { apply Forall_forall. intros x Hx. apply in_map_iff in Hx. destruct Hx as (l & <- & Hl). apply (In_nth _ _ []) in Hl. destruct Hl as (c & Hc & <-). rewrite rowsN_length in Hc. pose proof (rowsN_le c Hc). lia. }
    cbn [bind]. replace ((Z.of_nat n <? 0) || (Z.of_nat m <? 0) || (Z.of_nat dv <? 0) || (Z.of_nat dc <? 0)) with false by lia. rewrite !Nat2Z.id, !Edeg.
    rewrite <- columns_length at 1. rewrite Av.
    2: { intros j Hj. rewrite columns_length in Hj. cbn [Nat.add]. rewrite (nth_map_lt _ colsN j []) by (rewrite colsN_length; exact Hj). rewrite colsN_nth, column_nth by exact Hj. split; [reflexivity|].
         rewrite <- colsN_nth by exact Hj. apply width_ge, nth_In. rewrite colsN_length. exact Hj. }
    2: { rewrite columns_length, map_length, colsN_length. lia. }
    cbn [bind fst snd]. rewrite Ac.
    2: { intros j Hj. cbn [Nat.add]. rewrite (nth_map_lt _ rowsN j []) by (rewrite rowsN_length; exact Hj). rewrite rowsN_nth by exact Hj. split; [reflexivity|].
         rewrite <- rowsN_nth by exact Hj. apply width_ge, nth_In. rewrite rowsN_length. exact Hj. }
    2: { rewrite map_length, rowsN_length. lia. }
    cbn [bind fst snd].
    assert (Ep : forall A w, map (fun l => map Z.of_nat (nonzero l) ++ repeat (-1) (w - length (nonzero l))) A = map (padded w) (map nonzero A)) by (intros A w; rewrite map_map; reflexivity).
    rewrite !Ep. fold rowsN colsN. rewrite rowsN_length in Ecm. rewrite colsN_length in Evm. rewrite Ecm. cbn [bind]. rewrite Evm. cbn [bind].
    unfold result. do 2 f_equal.
    - apply (wrap_concat dv colsN m); [|lia]. apply Forall_forall. intros l Hl x Hx. apply (In_nth _ _ []) in Hl. destruct Hl as (v & Hv & <-). rewrite colsN_length in Hv. apply colsN_In in Hx; [apply Hx|exact Hv].
    - apply (wrap_concat dc rowsN n); [|lia]. apply Forall_forall. intros l Hl x Hx. apply (In_nth _ _ []) in Hl. destruct Hl as (c & Hc & <-). rewrite rowsN_length in Hc. apply rowsN_In in Hx; [apply Hx|exact Hc].
    - apply (wrap_concat dc cm m); [|lia]. apply (good_bound rowsN colsN); [exact Hcm|]. intros c i Hc Hi. rewrite rowsN_length in Hc. apply colsN_le. pose proof (nth_In _ 0%nat Hi) as Hin. apply rowsN_In in Hin; [apply Hin|exact Hc].
    - apply (wrap_concat dv vm n); [|lia]. apply (good_bound colsN rowsN); [exact Hvm|]. intros v i Hv Hi. rewrite colsN_length in Hv. apply rowsN_le. pose proof (nth_In _ 0%nat Hi) as Hin. apply colsN_In in Hin; [apply Hin|exact Hv].
  Qed.

  Lemma padded_rows w A : (forall l, In l A -> (length l <= w)%nat) -> Forall (fun r => length r = w) (map (padded w) A).
  Proof. clear. intros HA. apply Forall_map, Forall_forall. intros l Hl. apply padded_length, HA, Hl. Qed.
  Lemma flat_entry w A a i : (forall l, In l A -> (length l <= w)%nat) -> (a < length A)%nat -> (i < length (nth a A []))%nat -> nth (a * w + i) (concat (map (padded w) A)) (-1) = Z.of_nat (nth i (nth a A []) 0%nat).
  Proof.
    clear. intros HA Ha Hi. pose proof (HA _ (nth_In _ [] Ha)) as Hw. rewrite (concat_entry _ w) by (try (apply padded_rows; exact HA); rewrite ?map_length; lia).
    rewrite (nth_map_lt (padded w) A a []) by exact Ha. apply padded_nth. exact Hi.
  Qed.
  Lemma good_le A B M w : good_map A B M -> (forall l, In l A -> (length l <= w)%nat) -> forall l, In l M -> (length l <= w)%nat.
  Proof. clear. intros [HL HM] HA l Hl. apply (In_nth _ _ []) in Hl. destruct Hl as (a & Ha & <-). rewrite HL in Ha. destruct (HM a Ha) as [-> _]. apply HA, nth_In. exact Ha. Qed.

  Lemma result_describes cm vm : describes (result cm vm) H.
  Proof.
    assert (Hw : forall l, In l rowsN -> (length l <= dc)%nat) by (intros l Hl; apply width_ge; exact Hl).
    split; [exact HB|]. split; [reflexivity|]. split; [reflexivity|]. cbn [result c_adj c_deg n_cnodes max_cdeg n_vnodes]. split; [rewrite (concat_length_w _ dc) by (apply padded_rows; exact Hw); rewrite map_length, rowsN_length; reflexivity|].
    split; [rewrite map_length; apply rowsN_length|]. intros c Hc. cbv zeta. rewrite (nth_map_lt _ rowsN c []) by (rewrite rowsN_length; exact Hc). rewrite Nat2Z.id.
    assert (Hwc : (length (nth c rowsN []) <= dc)%nat) by (apply Hw, nth_In; rewrite rowsN_length; exact Hc). split; [lia|]. split.
    - intros i Hi. rewrite flat_entry by (try exact Hw; try exact Hi; rewrite rowsN_length; exact Hc). pose proof (nth_In _ 0%nat Hi) as Hin. apply rowsN_In in Hin; [lia|exact Hc].
    - intros j Hj. split.
      + intros E. assert (Hin : In j (nth c rowsN [])) by (apply rowsN_In; [exact Hc|split; assumption]). apply (In_nth _ _ 0%nat) in Hin. destruct Hin as (i & Hi & Ei). exists i. split; [exact Hi|].
        rewrite flat_entry by (try exact Hw; try exact Hi; rewrite rowsN_length; exact Hc). rewrite Ei. reflexivity.
      + intros (i & Hi & Ei). rewrite flat_entry in Ei by (try exact Hw; try exact Hi; rewrite rowsN_length; exact Hc). apply Nat2Z.inj in Ei. pose proof (nth_In _ 0%nat Hi) as Hin. rewrite Ei in Hin. apply rowsN_In in Hin; [apply Hin|exact Hc].
  Qed.
  Lemma result_columns cm vm : describes_columns (result cm vm) H.
  Proof.
    assert (Hw : forall l, In l colsN -> (length l <= dv)%nat) by (intros l Hl; apply width_ge; exact Hl).
    unfold describes_columns. cbn [result v_adj v_deg n_cnodes max_vdeg n_vnodes]. split; [rewrite (concat_length_w _ dv) by (apply padded_rows; exact Hw); rewrite map_length, colsN_length; reflexivity|].
    split; [rewrite map_length; apply colsN_length|]. intros c Hc. cbv zeta. rewrite (nth_map_lt _ colsN c []) by (rewrite colsN_length; exact Hc). rewrite Nat2Z.id.
    assert (Hwc : (length (nth c colsN []) <= dv)%nat) by (apply Hw, nth_In; rewrite colsN_length; exact Hc). split; [lia|]. split.
    - intros i Hi. rewrite flat_entry by (try exact Hw; try exact Hi; rewrite colsN_length; exact Hc). pose proof (nth_In _ 0%nat Hi) as Hin. apply colsN_In in Hin; [lia|exact Hc].
    - intros j Hj. split.
      + intros E. assert (Hin : In j (nth c colsN [])) by (apply colsN_In; [exact Hc|split; assumption]). apply (In_nth _ _ 0%nat) in Hin. destruct Hin as (i & Hi & Ei). exists i. split; [exact Hi|].
        rewrite flat_entry by (try exact Hw; try exact Hi; rewrite colsN_length; exact Hc). rewrite Ei. reflexivity.
      + intros (i & Hi & Ei). rewrite flat_entry in Ei by (try exact Hw; try exact Hi; rewrite colsN_length; exact Hc). apply Nat2Z.inj in Ei. pose proof (nth_In _ 0%nat Hi) as Hin. rewrite Ei in Hin. apply colsN_In in Hin; [apply Hin|exact Hc].
  Qed.
  Lemma result_maps cm vm : good_map rowsN colsN cm -> good_map colsN rowsN vm -> maps_inverse (result cm vm).
  Proof.
    intros Hcm Hvm.
    assert (Hwr : forall l, In l rowsN -> (length l <= dc)%nat) by (intros l Hl; apply width_ge; exact Hl).
    assert (Hwc : forall l, In l colsN -> (length l <= dv)%nat) by (intros l Hl; apply width_ge; exact Hl).
    pose proof (good_le _ _ _ _ Hcm Hwr) as Hwcm. pose proof (good_le _ _ _ _ Hvm Hwc) as Hwvm. destruct Hcm as [Lc Hcm]. destruct Hvm as [Lv Hvm].
    unfold maps_inverse. cbn [result c_map c_adj v_map v_adj n_cnodes n_vnodes c_deg v_deg max_cdeg max_vdeg].
    split; [rewrite !(concat_length_w _ dc), !map_length, Lc by (apply padded_rows; assumption); reflexivity|].
    split; [rewrite !(concat_length_w _ dv), !map_length, Lv by (apply padded_rows; assumption); reflexivity|]. split.
    - intros c i Hc Hi. rewrite (nth_map_lt _ rowsN c []) in Hi by (rewrite rowsN_length; exact Hc). rewrite Nat2Z.id in Hi. destruct (Hcm c ltac:(rewrite rowsN_length; exact Hc)) as [H1 H2]. destruct (H2 i Hi) as [H3 H4]. cbv zeta in *.
      rewrite (flat_entry dc rowsN) by (try assumption; rewrite rowsN_length; exact Hc). rewrite (flat_entry dc cm) by (try assumption; rewrite ?Lc, ?rowsN_length, ?H1; assumption). rewrite !Nat2Z.id.
      pose proof (nth_In _ 0%nat Hi) as Hin. apply rowsN_In in Hin; [|exact Hc]. set (v := nth i (nth c rowsN []) 0%nat) in *. rewrite (nth_map_lt _ colsN v []) by (rewrite colsN_length; apply Hin).
      split; [lia|]. rewrite flat_entry by (try assumption; rewrite colsN_length; apply Hin). rewrite H4. reflexivity.
    - intros c i Hc Hi. rewrite (nth_map_lt _ colsN c []) in Hi by (rewrite colsN_length; exact Hc). rewrite Nat2Z.id in Hi. destruct (Hvm c ltac:(rewrite colsN_length; exact Hc)) as [H1 H2]. destruct (H2 i Hi) as [H3 H4]. cbv zeta in *.
      rewrite (flat_entry dv colsN) by (try assumption; rewrite colsN_length; exact Hc). rewrite (flat_entry dv vm) by (try assumption; rewrite ?Lv, ?colsN_length, ?H1; assumption). rewrite !Nat2Z.id.
      pose proof (nth_In _ 0%nat Hi) as Hin. apply colsN_In in Hin; [|exact Hc]. set (v := nth i (nth c colsN []) 0%nat) in *. rewrite (nth_map_lt _ rowsN v []) by (rewrite rowsN_length; apply Hin).
      split; [lia|]. rewrite flat_entry by (try assumption; rewrite rowsN_length; apply Hin). rewrite H4. reflexivity.
  Qed.
End File.
