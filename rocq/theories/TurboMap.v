(* The MAP decoder computes exact posterior ratios. *)
From Coq Require Import Reals Lra.
From Verif Require Import Base UtilModel UtilProofs TrellisModel TrellisSpec FloatRate ConvProofs ViterbiArray LinksProofs TurboModel TurboSpec.
Local Open Scope R_scope.

Lemma total_cons {A} (f : A -> R) a l : total f (a :: l) = f a + total f l. Proof. reflexivity. Qed.
Lemma total_nil {A} (f : A -> R) : total f [] = 0. Proof. reflexivity. Qed.
Lemma total_app {A} (f : A -> R) l l' : total f (l ++ l') = total f l + total f l'.
Proof. induction l as [|a l IH]; cbn [app]; [rewrite total_nil; lra|]. rewrite !total_cons, IH. lra. Qed.
Lemma total_map {A B} (f : B -> R) (g : A -> B) l : total f (map g l) = total (fun x => f (g x)) l.
Proof. unfold total. rewrite map_map. reflexivity. Qed.
Lemma total_ext {A} (f g : A -> R) l : (forall x, In x l -> f x = g x) -> total f l = total g l.
Proof. intros H. unfold total. f_equal. apply map_ext_in. exact H. Qed.
Lemma total_mul {A} c (f : A -> R) l : total (fun x => c * f x) l = c * total f l.
Proof. induction l as [|a l IH]; [rewrite !total_nil; lra|]. rewrite !total_cons, IH. lra. Qed.
Lemma total_add {A} (f g : A -> R) l : total (fun x => f x + g x) l = total f l + total g l.
Proof. induction l as [|a l IH]; [rewrite !total_nil; lra|]. rewrite !total_cons, IH. lra. Qed.
Lemma total_0 {A} (f : A -> R) l : (forall x, In x l -> f x = 0) -> total f l = 0.
Proof. intros H. induction l as [|a l IH]; [reflexivity|]. rewrite total_cons, (H a (or_introl eq_refl)), IH; [lra|]. intros x Hx. apply H. right. exact Hx. Qed.
Lemma total_pos {A} (f : A -> R) l : l <> [] -> (forall x, In x l -> 0 < f x) -> 0 < total f l.
Proof.
  intros Hne H. destruct l as [|a l]; [contradiction|]. clear Hne. revert a H. induction l as [|b l IH]; intros a H; rewrite total_cons.
  - rewrite total_nil. specialize (H a (or_introl eq_refl)). lra.
  - specialize (IH b ltac:(intros x Hx; apply H; right; exact Hx)). specialize (H a (or_introl eq_refl)). lra.
Qed.
Lemma total_swap {A B} (f : A -> B -> R) l l' : total (fun a => total (f a) l') l = total (fun b => total (fun a => f a b) l) l'.
Proof.
  induction l as [|a l IH]; [rewrite total_nil; symmetry; apply total_0; reflexivity|]. rewrite total_cons, IH, <- total_add. apply total_ext. intros b _. reflexivity.
Qed.
Lemma total_prod {A B} (f : A * B -> R) l l' : total f (list_prod l l') = total (fun a => total (fun b => f (a, b)) l') l.
Proof. induction l as [|a l IH]; [reflexivity|]. cbn [list_prod]. rewrite total_app, total_map, total_cons, IH. reflexivity. Qed.
Lemma total_single (f : nat -> R) n i : forall a, (a <= i < a + n)%nat -> total (fun j => if (j =? i)%nat then f j else 0) (seq a n) = f i.
Proof.
  induction n as [|n IH]; intros a Hi; [lia|]. cbn [seq]. rewrite total_cons. destruct (Nat.eqb_spec a i) as [->|Hne].
  - rewrite total_0; [lra|]. intros j Hj. apply in_seq in Hj. replace (j =? i)%nat with false by lia. reflexivity.
  - rewrite IH by lia. lra.
Qed.
Lemma Rsum_total l : Rsum l = total (fun i => nth i l 0) (seq 0 (length l)).
Proof.
  unfold Rsum, total. f_equal. apply (nth_ext _ _ 0 0); [rewrite map_length, seq_length; reflexivity|]. intros i Hi.
  rewrite nth_map_seq by exact Hi. reflexivity.
Qed.

Lemma prior_pos l u : 0 < prior l u.
Proof. unfold prior. pose proof (exp_pos l). destruct (u =? 1)%Z; apply Rdiv_lt_0_compat; lra. Qed.
Lemma gauss_pos v r b : 0 < gauss v r b. Proof. apply exp_pos. Qed.

Section Map.
Variables (tr : Trellis) (v : R) (sys par L : list R).
Hypothesis HR : half_rate tr.
Local Notation nx := (entry (tr_next tr)).
Local Notation ou := (entry (tr_out tr)).
Local Notation M := (tr_M tr).
Local Notation NS := (2 ^ tr_M tr)%nat.
Local Notation inS s := (0 <= s < 2 ^ Z.of_nat M)%Z.

Definition gamma (t : nat) (s u : Z) : R := gauss v (nth t sys 0) (ou s u / 2)%Z * gauss v (nth t par 0) (ou s u mod 2)%Z.
Definition pr (t : nat) (u : Z) : R := prior (nth t L 0) u.
Lemma gamma_pos t s u : 0 < gamma t s u. Proof. apply Rmult_lt_0_compat; apply gauss_pos. Qed.
Lemma pr_pos t u : 0 < pr t u. Proof. apply prior_pos. Qed.

(* total weight of the k steps from time t and state s, with the final state valued by h *)
Fixpoint SS (t k : nat) (s : Z) (h : Z -> R) : R :=
  match k with
  | O => h s
  | S k => gamma t s 0 * pr t 0 * SS (S t) k (nx s 0) h + gamma t s 1 * pr t 1 * SS (S t) k (nx s 1) h
  end.
Lemma SS_ext k : forall t s h h', inS s -> (forall s, inS s -> h s = h' s) -> SS t k s h = SS t k s h'.
Proof.
  destruct HR as (Hk & Hn & _ & _ & V). rewrite Hk in V. induction k as [|k IH]; intros t s h h' Hs H; [apply H; exact Hs|]. cbn [SS].
  destruct (V s 0%Z Hs ltac:(cbn; lia)) as (_ & H0 & _). destruct (V s 1%Z Hs ltac:(cbn; lia)) as (_ & H1 & _).
  rewrite (IH _ _ h h' H0 H), (IH _ _ h h' H1 H). reflexivity.
Qed.
Lemma SS_mul k : forall t s c h, SS t k s (fun s => c * h s) = c * SS t k s h.
Proof. induction k as [|k IH]; intros t s c h; [reflexivity|]. cbn [SS]. rewrite !IH. ring. Qed.
Lemma SS_pos k : forall t s h, inS s -> (forall s, inS s -> 0 < h s) -> 0 < SS t k s h.
Proof.
  destruct HR as (Hk & Hn & _ & _ & V). rewrite Hk in V. induction k as [|k IH]; intros t s h Hs H; [apply H; exact Hs|]. cbn [SS].
  destruct (V s 0%Z Hs ltac:(cbn; lia)) as (_ & H0 & _). destruct (V s 1%Z Hs ltac:(cbn; lia)) as (_ & H1 & _).
  apply Rplus_lt_0_compat; (apply Rmult_lt_0_compat; [apply Rmult_lt_0_compat; [apply gamma_pos|apply pr_pos]|apply IH; assumption]).
Qed.
Lemma SS_last k : forall t s h, SS t (S k) s h = SS t k s (fun s' => gamma (t + k) s' 0 * pr (t + k) 0 * h (nx s' 0%Z) + gamma (t + k) s' 1 * pr (t + k) 1 * h (nx s' 1%Z)).
Proof.
  induction k as [|k IH]; intros t s h; [cbn [SS]; rewrite Nat.add_0_r; reflexivity|]. 
  change (SS t (S (S k)) s h) with (gamma t s 0 * pr t 0 * SS (S t) (S k) (nx s 0%Z) h + gamma t s 1 * pr t 1 * SS (S t) (S k) (nx s 1%Z) h).
  rewrite (IH (S t) (nx s 0%Z)), (IH (S t) (nx s 1%Z)). replace (S t + k)%nat with (t + S k)%nat by lia. reflexivity.
Qed.

Definition B (t k : nat) (s : Z) : R := SS t k s (fun _ => 1).

(* ------------------------------------------------------------ sums over sequences *)
Lemma tl_skipn {A} t : forall l : list A, tl (skipn t l) = skipn (S t) l.
Proof. induction t as [|t IH]; intros l; [destruct l; reflexivity|]. destruct l as [|x l]; [reflexivity|]. cbn [skipn]. apply IH. Qed.
Lemma hd_skipn t : forall l, hd 0 (skipn t l) = nth t l 0.
Proof. induction t as [|t IH]; intros l; destruct l as [|x l]; try reflexivity. cbn [skipn nth]. apply IH. Qed.

Local Notation W t s us := (weight_from tr v (skipn t sys) (skipn t par) (skipn t L) s us).
Lemma W_cons t s u us : W t s (u :: us) = gamma t s u * pr t u * W (S t) (nx s u) us.
Proof. cbn [weight_from]. rewrite !tl_skipn, !hd_skipn. reflexivity. Qed.

Lemma total_B k : forall t s, total (fun us => W t s us) (all_bits k) = B t k s.
Proof.
  unfold B. induction k as [|k IH]; intros t s; [cbn [all_bits SS]; rewrite total_cons, total_nil; cbn [weight_from]; lra|].
  cbn [all_bits SS]. rewrite total_app, !total_map. rewrite <- !IH, <- !total_mul.
  f_equal; apply total_ext; intros us _; apply W_cons.
Qed.

Lemma filter_map_c {A C} (f : C -> bool) (g : A -> C) l : filter f (map g l) = map g (filter (fun x => f (g x)) l).
Proof. induction l as [|a l IH]; [reflexivity|]. cbn [map filter]. destruct (f (g a)); cbn [map]; rewrite IH; reflexivity. Qed.
Lemma filter_all_true {A} (f : A -> bool) l : (forall x, f x = true) -> filter f l = l.
Proof. intros H. induction l as [|a l IH]; [reflexivity|]. cbn [filter]. rewrite H, IH. reflexivity. Qed.
Lemma filter_all_false {A} (f : A -> bool) l : (forall x, f x = false) -> filter f l = [].
Proof. intros H. induction l as [|a l IH]; [reflexivity|]. cbn [filter]. rewrite H, IH. reflexivity. Qed.

Lemma total_evidence j : forall t k s b, is_bit b -> total (fun us => W t s us) (filter (fun us => (nth j us 0 =? b)%Z) (all_bits (j + S k))) =
  SS t j s (fun s' => gamma (t + j) s' b * pr (t + j) b * B (S (t + j)) k (nx s' b)).
Proof.
  induction j as [|j IH]; intros t k s b Hb; cbn [Nat.add all_bits].
  - rewrite filter_app, total_app, !filter_map_c, !total_map. cbn [nth SS]. rewrite Nat.add_0_r.
    destruct Hb as [-> | ->]; cbn [Z.eqb Pos.eqb]; rewrite (filter_all_true (fun _ => true)), (filter_all_false (fun _ => false)) by reflexivity; rewrite total_nil, ?Rplus_0_r, ?Rplus_0_l;
      rewrite (total_ext _ _ _ (fun us _ => W_cons t s _ us)), total_mul, total_B; reflexivity.
  - rewrite filter_app, total_app, !filter_map_c, !total_map. cbn [nth SS].
    rewrite !(total_ext _ _ _ (fun us _ => W_cons t s _ us)), !total_mul, !IH by exact Hb.
    replace (S t + j)%nat with (t + S j)%nat by lia. reflexivity.
Qed.

(* ------------------------------------------------------------ the loops *)
Lemma fold_backward (idx : nat * nat -> nat) (val bp : nat * nat -> R) (step : list R * list R -> nat * nat -> res (list R * list R)) (n : nat) l :
  (forall x, In x l -> (idx x < n)%nat) ->
  (forall col probs x, In x l -> length col = n -> step (col, probs) x = Ok (upd col (idx x) (nth (idx x) col 0 + val x), probs ++ [bp x])) ->
  forall col probs, length col = n -> exists col', foldM step l (col, probs) = Ok (col', probs ++ map bp l) /\ length col' = n /\
    forall i, (i < n)%nat -> nth i col' 0 = nth i col 0 + total (fun x => if (idx x =? i)%nat then val x else 0) l.
Proof.
  induction l as [|x l IH]; intros Hi Hs col probs Hl.
  - exists col. cbn [foldM map]. rewrite app_nil_r. split; [reflexivity|]. split; [exact Hl|]. intros i _. rewrite total_nil. lra.
  - cbn [foldM]. rewrite Hs by (try (left; reflexivity); exact Hl). cbn [bind].
    destruct (IH (fun y Hy => Hi y (or_intror Hy)) (fun c p y Hy => Hs c p y (or_intror Hy)) (upd col (idx x) (nth (idx x) col 0 + val x)) (probs ++ [bp x])) as (col' & E & Hl' & Hn).
    { rewrite upd_length. exact Hl. }
    exists col'. split; [rewrite E; cbn [map]; rewrite <- app_assoc; reflexivity|]. split; [exact Hl'|]. intros i Hlt. rewrite Hn by exact Hlt.
    specialize (Hi x (or_introl eq_refl)). rewrite total_cons, nth_upd. rewrite Hl. replace (idx x <? n)%nat with true by lia. rewrite andb_true_r, (Nat.eqb_sym i).
    destruct (Nat.eqb_spec (idx x) i) as [->|]; lra.
Qed.

Lemma fold_forward {X} (idx adx : X -> nat) (val vala : X -> R) (step : list R * list R -> X -> res (list R * list R)) (n m : nat) l :
  (forall x, In x l -> (idx x < n)%nat) -> (forall x, In x l -> (adx x < m)%nat) ->
  (forall f1 ap x, In x l -> length f1 = n -> length ap = m -> step (f1, ap) x = Ok (upd f1 (idx x) (nth (idx x) f1 0 + val x), upd ap (adx x) (nth (adx x) ap 0 + vala x))) ->
  forall f1 ap, length f1 = n -> length ap = m -> exists f1' ap', foldM step l (f1, ap) = Ok (f1', ap') /\ length f1' = n /\ length ap' = m /\
    (forall i, (i < n)%nat -> nth i f1' 0 = nth i f1 0 + total (fun x => if (idx x =? i)%nat then val x else 0) l) /\
    (forall i, (i < m)%nat -> nth i ap' 0 = nth i ap 0 + total (fun x => if (adx x =? i)%nat then vala x else 0) l).
Proof.
  induction l as [|x l IH]; intros Hi Ha Hs f1 ap Hl Hm.
  - exists f1, ap. cbn [foldM]. split; [reflexivity|]. split; [exact Hl|]. split; [exact Hm|]. split; intros i _; rewrite total_nil; lra.
  - cbn [foldM]. rewrite Hs by (try (left; reflexivity); assumption). cbn [bind].
    destruct (IH (fun y Hy => Hi y (or_intror Hy)) (fun y Hy => Ha y (or_intror Hy)) (fun c p y Hy => Hs c p y (or_intror Hy)) (upd f1 (idx x) (nth (idx x) f1 0 + val x)) (upd ap (adx x) (nth (adx x) ap 0 + vala x))) as (f1' & ap' & E & Hl' & Hm' & Hn & Hna).
    { rewrite upd_length. exact Hl. } { rewrite upd_length. exact Hm. }
    exists f1', ap'. split; [exact E|]. split; [exact Hl'|]. split; [exact Hm'|].
    specialize (Hi x (or_introl eq_refl)). specialize (Ha x (or_introl eq_refl)). split; intros i Hlt.
    + rewrite Hn by exact Hlt. rewrite total_cons, nth_upd, Hl. replace (idx x <? n)%nat with true by lia. rewrite andb_true_r, (Nat.eqb_sym i).
      destruct (Nat.eqb_spec (idx x) i) as [->|]; lra.
    + rewrite Hna by exact Hlt. rewrite total_cons, nth_upd, Hm. replace (adx x <? m)%nat with true by lia. rewrite andb_true_r, (Nat.eqb_sym i).
      destruct (Nat.eqb_spec (adx x) i) as [->|]; lra.
Qed.

Lemma branches_in s u : In (s, u) (branches tr) <-> (s < NS)%nat /\ (u < 2)%nat.
Proof.
  unfold branches. rewrite in_prod_iff, !in_seq. unfold number_states, number_inputs. destruct HR as (-> & _). cbn [Nat.pow Nat.mul Nat.add]. lia.
Qed.
Lemma state_Z s : (s < NS)%nat -> inS (Z.of_nat s).
Proof. intros H. split; [lia|]. apply Nat2Z.inj_lt in H. rewrite Nat2Z.inj_pow in H. exact H. Qed.
Lemma state_nat s : inS s -> (Z.to_nat s < NS)%nat.
Proof. intros H. apply Nat2Z.inj_lt. rewrite Nat2Z.inj_pow. rewrite Z2Nat.id by lia. apply H. Qed.

Lemma tables s u : (s < NS)%nat -> (u < 2)%nat ->
  table_get (tr_next tr) (Z.of_nat s) (Z.of_nat u) = Ok (Z.of_nat (Z.to_nat (nx (Z.of_nat s) (Z.of_nat u)))) /\ (Z.to_nat (nx (Z.of_nat s) (Z.of_nat u)) < NS)%nat /\
  inS (nx (Z.of_nat s) (Z.of_nat u)) /\
  exists c, table_get (tr_out tr) (Z.of_nat s) (Z.of_nat u) = Ok c /\ dec2bitarray c (tr_n tr) = Ok [(ou (Z.of_nat s) (Z.of_nat u) / 2)%Z; (ou (Z.of_nat s) (Z.of_nat u) mod 2)%Z].
Proof.
  intros Hs Hu. destruct HR as (Hk & Hn & _ & _ & V). rewrite Hk, Hn in V. destruct (V (Z.of_nat s) (Z.of_nat u) (state_Z s Hs) ltac:(cbn; lia)) as (E1 & R1 & E2 & R2).
  rewrite Z2Nat.id by lia. split; [exact E1|]. split; [apply state_nat, R1|]. split; [exact R1|]. eexists. split; [exact E2|]. rewrite Hn. unfold dec2bitarray. rewrite decimal2bitarray_ok by exact R2.
  f_equal. cbn in R2. set (w := ou (Z.of_nat s) (Z.of_nat u)) in *. assert (w = 0 \/ w = 1 \/ w = 2 \/ w = 3)%Z as [->|[->|[->| ->]]] by lia; reflexivity.
Qed.

Lemma branch_prob_gauss c0 c1 r0 r1 : branch_prob c0 c1 r0 r1 v = gauss v r0 c0 * gauss v r1 c1.
Proof. unfold branch_prob, gauss. rewrite <- exp_plus. f_equal. unfold Rdiv. ring. Qed.

Variable N : nat.
Hypothesis (Hsys : length sys = N) (Hpar : (N <= length par)%nat) (HL : length L = N).
Definition p0 := map (fun l => 1 / (1 + exp l)) L.
Definition priors := [p0; map (fun p => 1 - p) p0].

Lemma priors_get u t : (u < 2)%nat -> (t < N)%nat -> exists row, py_get priors (Z.of_nat u) = Ok row /\ py_get row (Z.of_nat t) = Ok (pr t (Z.of_nat u)).
Proof.
  intros Hu Ht. rewrite (py_get_ok priors u []) by (cbn; lia). eexists. split; [reflexivity|].
  assert (Hl : length p0 = N) by (unfold p0; rewrite map_length; exact HL).
  assert (Hp : nth t p0 0 = 1 / (1 + exp (nth t L 0))) by (unfold p0; rewrite (nth_map_lt _ L t 0) by lia; reflexivity).
  destruct u as [|[|u]]; [| |lia]; cbn [nth priors].
  - rewrite (py_get_ok p0 t 0) by lia. rewrite Hp. reflexivity.
  - rewrite (py_get_ok _ t 0) by (rewrite map_length; lia). f_equal. rewrite (nth_map_lt _ p0 t 0) by lia. rewrite Hp.
    unfold pr, prior. cbn. pose proof (exp_pos (nth t L 0)). field. lra.
Qed.

Definition bpf (t : nat) (su : nat * nat) : R := gamma t (Z.of_nat (fst su)) (Z.of_nat (snd su)).

Lemma total_branches f : total f (branches tr) = total (fun s => f (s, 0%nat) + f (s, 1%nat)) (seq 0 NS).
Proof.
  unfold branches. rewrite total_prod. unfold number_states, number_inputs. destruct HR as (-> & _). apply total_ext. intros s _. cbn. unfold total. cbn. lra.
Qed.

Lemma backward_column_ok t bnext c : (t < N)%nat -> length bnext = NS -> (forall s, (s < NS)%nat -> nth s bnext 0 = c * B (S t) (N - S t) (Z.of_nat s)) ->
  exists col, backward_column tr v sys par priors t bnext = Ok (col, map (bpf t) (branches tr)) /\ length col = NS /\
    forall s, (s < NS)%nat -> nth s col 0 = c * B t (N - t) (Z.of_nat s).
Proof.
  intros Ht Hb Hn. unfold backward_column.
  destruct (fold_backward fst (fun su => nth (Z.to_nat (nx (Z.of_nat (fst su)) (Z.of_nat (snd su)))) bnext 0 * bpf t su * pr t (Z.of_nat (snd su))) (bpf t)
    (fun st su => let '(col, probs) := st in
    let '(current_state, current_input) := su in
    next_state <- table_get (tr_next tr) (Z.of_nat current_state) (Z.of_nat current_input) ;;
    code_symbol <- table_get (tr_out tr) (Z.of_nat current_state) (Z.of_nat current_input) ;;
    codeword_array <- dec2bitarray code_symbol (tr_n tr) ;;
    parity_bit <- py_get codeword_array 1 ;;
    msg_bit <- py_get codeword_array 0 ;;
    rx_symbol_0 <- py_get sys (Z.of_nat t) ;;
    rx_symbol_1 <- py_get par (Z.of_nat t) ;;
    let bp := branch_prob msg_bit parity_bit rx_symbol_0 rx_symbol_1 v in
    b <- py_get bnext next_state ;;
    prow <- py_get priors (Z.of_nat current_input) ;;
    prior <- py_get prow (Z.of_nat t) ;;
    old <- py_get col (Z.of_nat current_state) ;;
    col' <- py_set col (Z.of_nat current_state) (old + b * bp * prior)%R ;;
    Ok (col', probs ++ [bp])) NS (branches tr)) with (col := repeat 0 (number_states tr)) (probs := @nil R) as (col & E & Hlc & Hc).
  - intros [s u] Hin. apply branches_in in Hin. cbn [fst]. lia.
  - intros col probs [s u] Hin Hl. apply branches_in in Hin. destruct Hin as [Hs Hu].
    destruct (tables s u Hs Hu) as (E1 & R1 & R2 & c' & E2 & E3). rewrite E1. cbn [bind]. rewrite E2. cbn [bind]. rewrite E3. cbn [bind].
    change (py_get [(ou (Z.of_nat s) (Z.of_nat u) / 2)%Z; (ou (Z.of_nat s) (Z.of_nat u) mod 2)%Z] 1) with (Ok (A := Z) (ou (Z.of_nat s) (Z.of_nat u) mod 2)%Z).
    change (py_get [(ou (Z.of_nat s) (Z.of_nat u) / 2)%Z; (ou (Z.of_nat s) (Z.of_nat u) mod 2)%Z] 0) with (Ok (A := Z) (ou (Z.of_nat s) (Z.of_nat u) / 2)%Z). cbn [bind].
    rewrite (py_get_ok sys t 0) by lia. cbn [bind]. rewrite (py_get_ok par t 0) by lia. cbn [bind].
    rewrite (py_get_ok bnext _ 0) by lia. cbn [bind]. destruct (priors_get u t Hu Ht) as (row & Ep & Er). rewrite Ep. cbn [bind]. rewrite Er. cbn [bind].
    rewrite (py_get_ok col s 0) by lia. cbn [bind]. rewrite py_set_ok by lia. cbn [bind fst snd].
    rewrite branch_prob_gauss. unfold bpf. cbn [fst snd]. fold (gamma t (Z.of_nat s) (Z.of_nat u)). reflexivity.
  - rewrite repeat_length. reflexivity.
  - exists col. split; [exact E|]. split; [exact Hlc|]. intros s Hs. rewrite Hc by exact Hs. rewrite nth_repeat_same. rewrite Rplus_0_l, total_branches. cbn [fst snd].
    rewrite (total_ext _ (fun j => if (j =? s)%nat then c * B t (N - t) (Z.of_nat j) else 0)).
    + rewrite (total_single (fun j => c * B t (N - t) (Z.of_nat j))) by lia. reflexivity.
    + intros j Hj. apply in_seq in Hj. destruct (Nat.eqb_spec j s); [|lra].
      destruct (tables j 0 ltac:(lia) ltac:(lia)) as (_ & R0 & R0' & _). destruct (tables j 1 ltac:(lia) ltac:(lia)) as (_ & R1 & R1' & _).
      rewrite !Hn by assumption. unfold bpf. cbn [fst snd]. rewrite !Z2Nat.id by (first [apply R0'|apply R1']). unfold B. replace (N - t)%nat with (S (N - S t)) by lia. cbn [SS]. change (Z.of_nat 0) with 0%Z. change (Z.of_nat 1) with 1%Z. ring.
Qed.

Lemma B_pos t k s : inS s -> 0 < B t k s.
Proof. intros H. apply SS_pos; [exact H|]. intros. lra. Qed.

Lemma NS_pos : (0 < NS)%nat. Proof. apply Nat.neq_0_lt_0, Nat.pow_nonzero. lia. Qed.

Lemma normalise_ok col c (f : nat -> R) : 0 < c -> (forall s, (s < NS)%nat -> 0 < f s) -> length col = NS -> (forall s, (s < NS)%nat -> nth s col 0 = c * f s) ->
  length (normalise col) = NS /\ exists c', 0 < c' /\ forall s, (s < NS)%nat -> nth s (normalise col) 0 = c' * f s.
Proof.
  intros Hc Hf Hl Hn. unfold normalise. split; [rewrite map_length; exact Hl|]. 
  assert (Hs : 0 < Rsum col).
  { rewrite Rsum_total. apply total_pos; [pose proof NS_pos; destruct (length col) eqn:E; [lia|discriminate]|]. intros i Hi. apply in_seq in Hi. rewrite Hn by lia. apply Rmult_lt_0_compat; [exact Hc|apply Hf; lia]. }
  exists (c / Rsum col). split; [apply Rdiv_lt_0_compat; assumption|]. intros s Hlt. rewrite (nth_map_lt _ col s 0) by lia. rewrite Hn by exact Hlt. field. lra.
Qed.

(* the columns t .. N *)
Definition good_cols (t : nat) (cols : list (list R)) : Prop := forall i, (t + i <= N)%nat -> length (nth i cols []) = NS /\
  exists c, 0 < c /\ forall s, (s < NS)%nat -> nth s (nth i cols []) 0 = c * B (t + i) (N - (t + i)) (Z.of_nat s).

Lemma backward_ok k : forall t, (t + k = N)%nat -> exists cols, 
  backward_recursion tr v sys par priors t k = Ok (cols, map (fun t => map (bpf t) (branches tr)) (seq t k)) /\ length cols = S k /\ good_cols t cols.
Proof.
  induction k as [|k IH]; intros t Hk; cbn [backward_recursion].
  - exists [repeat 1 (number_states tr)]. split; [reflexivity|]. split; [reflexivity|]. intros i Hi. assert (i = 0%nat) by lia. subst i. cbn [nth]. rewrite repeat_length. split; [reflexivity|].
    exists 1. split; [lra|]. intros s Hs. rewrite nth_repeat_lt by exact Hs. rewrite Nat.add_0_r. replace (N - t)%nat with 0%nat by lia. unfold B. cbn [SS]. lra.
  - destruct (IH (S t) ltac:(lia)) as (cols & E & Hlc & Hg). rewrite E. cbn [bind].
    destruct (Hg 0%nat ltac:(lia)) as (Hl0 & c & Hc & Hn). rewrite Nat.add_0_r in Hn.
    assert (Hhd : hd [] cols = nth 0 cols []) by (destruct cols; reflexivity). rewrite <- Hhd in *.
    destruct (backward_column_ok t (hd [] cols) c ltac:(lia) Hl0 Hn) as (col & E2 & Hl2 & Hn2). rewrite E2. cbn [bind fst snd].
    eexists. split; [cbn [seq map]; reflexivity|]. split; [cbn [length]; lia|]. intros i Hi. destruct i as [|i].
    + cbn [nth]. rewrite Nat.add_0_r. apply (normalise_ok col c (fun s => B t (N - t) (Z.of_nat s)) Hc); [|exact Hl2|exact Hn2]. intros s Hs. apply B_pos, state_Z, Hs.
    + cbn [nth]. destruct (Hg i ltac:(lia)) as (Ha & c' & Hb & Hd). split; [exact Ha|]. exists c'. split; [exact Hb|]. intros s Hs. rewrite Hd by exact Hs. replace (S t + i)%nat with (t + S i)%nat by lia. reflexivity.
Qed.

(* forward *)
Definition good_f (t : nat) (f0 : list R) : Prop := length f0 = NS /\ exists c, 0 < c /\ forall h : Z -> R, total (fun s => nth s f0 0 * h (Z.of_nat s)) (seq 0 NS) = c * SS 0 t 0 h.

Lemma total_combine_snd {A} (f : A -> R) (l : list A) : forall a, total (fun p => f (snd p)) (combine (seq a (length l)) l) = total f l.
Proof. induction l as [|x l IH]; intros a; [reflexivity|]. cbn [length seq combine]. rewrite !total_cons, IH. reflexivity. Qed.
Lemma in_combine_seq {A} (d : A) (l : list A) : forall a i x, In (i, x) (combine (seq a (length l)) l) -> (a <= i < a + length l)%nat /\ nth (i - a) l d = x.
Proof.
  induction l as [|y l IH]; intros a i x H; [destruct H|]. cbn [length seq combine In] in H. destruct H as [H|H].
  - injection H as <- <-. rewrite Nat.sub_diag. cbn [length nth]. split; [lia|reflexivity].
  - destruct (IH _ _ _ H) as [H1 H2]. cbn [length]. split; [lia|]. replace (i - a)%nat with (S (i - S a)) by lia. exact H2.
Qed.

Lemma forward_column_ok t f0 bnext c : (t < N)%nat -> good_f t f0 -> length bnext = NS -> 0 < c -> (forall s, (s < NS)%nat -> nth s bnext 0 = c * B (S t) (N - S t) (Z.of_nat s)) ->
  exists f1 a0 a1 d, forward_column tr priors t f0 bnext (map (bpf t) (branches tr)) = Ok (f1, [a0; a1]) /\ length f1 = NS /\ 0 < d /\
    (forall h : Z -> R, total (fun s => nth s f1 0 * h (Z.of_nat s)) (seq 0 NS) = d * SS 0 (S t) 0 h) /\
    exists e, 0 < e /\ a0 = e * SS 0 t 0 (fun s => gamma t s 0 * B (S t) (N - S t) (nx s 0%Z)) /\ a1 = e * SS 0 t 0 (fun s => gamma t s 1 * B (S t) (N - S t) (nx s 1%Z)).
Proof.
  intros Ht (Hlf & d & Hd & Hf) Hb Hc Hn. unfold forward_column.
  set (nxt := fun su : nat * nat => Z.to_nat (nx (Z.of_nat (fst su)) (Z.of_nat (snd su)))).
  destruct (fold_forward (fun x : nat * (nat * nat) => nxt (snd x)) (fun x => snd (snd x))
     (fun x => nth (fst (snd x)) f0 0 * bpf t (snd x) * pr t (Z.of_nat (snd (snd x)))) (fun x => nth (fst (snd x)) f0 0 * bpf t (snd x) * nth (nxt (snd x)) bnext 0)
     (fun st isu =>
    let '(f1, app) := st in
    let '(i, (current_state, current_input)) := isu in
    next_state <- table_get (tr_next tr) (Z.of_nat current_state) (Z.of_nat current_input) ;;
    bp <- py_get (map (bpf t) (branches tr)) (Z.of_nat i) ;;
    f <- py_get f0 (Z.of_nat current_state) ;;
    prow <- py_get priors (Z.of_nat current_input) ;;
    prior <- py_get prow (Z.of_nat t) ;;
    old <- py_get f1 next_state ;;
    f1' <- py_set f1 next_state (old + f * bp * prior)%R ;;
    b <- py_get bnext next_state ;;
    olda <- py_get app (Z.of_nat current_input) ;;
    app' <- py_set app (Z.of_nat current_input) (olda + f * bp * b)%R ;;
    Ok (f1', app')) NS 2 (combine (seq 0 (length (branches tr))) (branches tr))) with (f1 := repeat 0 (number_states tr)) (ap := repeat 0 (number_inputs tr)) as (f1 & ap & E & Hl1 & Hla & Hn1 & Hna).
  - intros [i [s u]] Hin. apply in_combine_r in Hin. apply branches_in in Hin. destruct Hin as [Hs Hu]. cbn [fst snd]. unfold nxt. cbn [fst snd]. apply (tables s u Hs Hu).
  - intros [i [s u]] Hin. apply in_combine_r in Hin. apply branches_in in Hin. cbn [fst snd]. lia.
  - intros f1 ap [i [s u]] Hin Hl1 Hla. pose proof (in_combine_seq (0%nat, 0%nat) _ _ _ _ Hin) as (Hi & Hib). rewrite Nat.sub_0_r in Hib.
    apply in_combine_r in Hin. apply branches_in in Hin. destruct Hin as [Hs Hu].
    destruct (tables s u Hs Hu) as (E1 & R1 & R2 & _). rewrite E1. cbn [bind].
    rewrite (py_get_ok _ i 0) by (rewrite map_length; lia). cbn [bind]. rewrite (nth_map_lt _ (branches tr) i (0%nat, 0%nat)) by lia. rewrite Hib.
    rewrite (py_get_ok f0 s 0) by lia. cbn [bind]. destruct (priors_get u t Hu Ht) as (row & Ep & Er). rewrite Ep. cbn [bind]. rewrite Er. cbn [bind].
    rewrite (py_get_ok f1 _ 0) by lia. cbn [bind]. rewrite py_set_ok by lia. cbn [bind]. rewrite (py_get_ok bnext _ 0) by lia. cbn [bind].
    rewrite (py_get_ok ap u 0) by lia. cbn [bind]. rewrite py_set_ok by lia. cbn [bind fst snd]. reflexivity.
  - rewrite repeat_length. reflexivity.
  - rewrite repeat_length. unfold number_inputs. destruct HR as (-> & _). reflexivity.
  - destruct ap as [|a0 [|a1 [|a2 ap]]]; try discriminate Hla. exists f1, a0, a1, d. split; [exact E|]. split; [exact Hl1|]. split; [exact Hd|].
    assert (Hz : forall i, nth i (repeat 0 (number_inputs tr)) 0 = 0) by (intros; apply nth_repeat_same).
    split.
    + intros h. rewrite SS_last. cbn [Nat.add]. rewrite <- Hf.
      rewrite (total_ext _ (fun i => total (fun x : nat * nat => if (nxt x =? i)%nat then nth (fst x) f0 0 * bpf t x * pr t (Z.of_nat (snd x)) * h (Z.of_nat i) else 0) (branches tr))).
      * rewrite total_swap. rewrite (total_ext _ (fun x => nth (fst x) f0 0 * bpf t x * pr t (Z.of_nat (snd x)) * h (Z.of_nat (nxt x)))).
        -- rewrite total_branches. apply total_ext. intros s Hs. apply in_seq in Hs. unfold nxt, bpf. cbn [fst snd]. 
           destruct (tables s 0 ltac:(lia) ltac:(lia)) as (_ & _ & R0 & _). destruct (tables s 1 ltac:(lia) ltac:(lia)) as (_ & _ & R1 & _). rewrite !Z2Nat.id by (first [apply R0|apply R1]). change (Z.of_nat 0) with 0%Z. change (Z.of_nat 1) with 1%Z. ring.
        -- intros [s u] Hin. apply branches_in in Hin. destruct Hin as [Hs Hu]. destruct (tables s u Hs Hu) as (_ & R1 & _).
           rewrite (total_ext _ (fun i => if (i =? nxt (s, u))%nat then nth s f0 0 * bpf t (s, u) * pr t (Z.of_nat u) * h (Z.of_nat i) else 0)) by (intros i _; rewrite (Nat.eqb_sym i); reflexivity).
           rewrite (total_single (fun i => nth s f0 0 * bpf t (s, u) * pr t (Z.of_nat u) * h (Z.of_nat i))) by (unfold nxt; cbn [fst snd]; lia). reflexivity.
      * intros i Hi. apply in_seq in Hi. rewrite Hn1 by lia. rewrite nth_repeat_same, Rplus_0_l.
        rewrite (total_combine_snd (fun x : nat * nat => if (nxt x =? i)%nat then nth (fst x) f0 0 * bpf t x * pr t (Z.of_nat (snd x)) else 0)).
        rewrite Rmult_comm, <- total_mul. apply total_ext. intros x _. destruct (nxt x =? i)%nat; lra.
    + exists (d * c). split; [apply Rmult_lt_0_compat; assumption|].
      assert (HA : forall u, (u < 2)%nat -> nth u [a0; a1] 0 = d * c * SS 0 t 0 (fun s => gamma t s (Z.of_nat u) * B (S t) (N - S t) (nx s (Z.of_nat u)))).
      { intros u Hu. rewrite Hna by exact Hu. rewrite Hz, Rplus_0_l.
        rewrite (total_combine_snd (fun x : nat * nat => if (snd x =? u)%nat then nth (fst x) f0 0 * bpf t x * nth (nxt x) bnext 0 else 0)).
        rewrite total_branches. cbn [snd fst]. rewrite Rmult_assoc, <- SS_mul, <- Hf. apply total_ext. intros s Hs. apply in_seq in Hs.
        destruct (tables s 0 ltac:(lia) ltac:(lia)) as (_ & Q0 & R0 & _). destruct (tables s 1 ltac:(lia) ltac:(lia)) as (_ & Q1 & R1 & _).
        unfold nxt, bpf. cbn [fst snd]. rewrite !Hn by assumption. rewrite !Z2Nat.id by (first [apply R0|apply R1]).
        destruct u as [|[|u]]; [| |lia]; cbn [Nat.eqb]; change (Z.of_nat 0) with 0%Z; change (Z.of_nat 1) with 1%Z; ring. }
      split; [exact (HA 0%nat ltac:(lia))|exact (HA 1%nat ltac:(lia))].
Qed.

(* the evidence for bit b at time t without the prior of that bit *)
Definition X (t : nat) (b : Z) : R := SS 0 t 0 (fun s => gamma t s b * B (S t) (N - S t) (nx s b)).
Lemma zero_in : inS 0%Z. Proof. split; [lia|apply Z.pow_pos_nonneg; lia]. Qed.
Lemma X_pos t b : is_bit b -> 0 < X t b.
Proof.
  intros Hb. destruct HR as (Hk & Hn & _ & _ & V). rewrite Hk in V. apply SS_pos; [exact zero_in|]. intros s Hs. apply Rmult_lt_0_compat; [apply gamma_pos|].
  apply B_pos. apply V; [exact Hs|]. destruct Hb as [-> | ->]; cbn; lia.
Qed.
Lemma evidence_X t b : (t < N)%nat -> is_bit b -> evidence tr v sys par L N t b = pr t b * X t b.
Proof.
  intros Ht Hb. unfold evidence. pose proof (total_evidence t 0 (N - S t) 0 b Hb) as H. cbn [skipn Nat.add] in H. replace (t + S (N - S t))%nat with N in H by lia.
  unfold weight. rewrite H. unfold X. rewrite <- SS_mul. apply SS_ext; [exact zero_in|]. intros s _. ring.
Qed.
Lemma pr_ratio t : pr t 1 / pr t 0 = exp (nth t L 0).
Proof. unfold pr, prior. cbn. pose proof (exp_pos (nth t L 0)). field. lra. Qed.
Lemma lappr_eq t : (t < N)%nat -> nth t L 0 + ln (X t 1 / X t 0) = ln (evidence tr v sys par L N t 1 / evidence tr v sys par L N t 0).
Proof.
  intros Ht. rewrite !evidence_X by (try exact Ht; unfold is_bit; lia). pose proof (X_pos t 0 (or_introl eq_refl)) as H0. pose proof (X_pos t 1 (or_intror eq_refl)) as H1.
  pose proof (pr_pos t 0) as P0. pose proof (pr_pos t 1) as P1.
  replace (pr t 1 * X t 1 / (pr t 0 * X t 0)) with (pr t 1 / pr t 0 * (X t 1 / X t 0)) by (field; lra).
  rewrite ln_mult by (apply Rdiv_lt_0_compat; assumption). rewrite pr_ratio, ln_exp. reflexivity.
Qed.
Lemma lappr_sign t : (t < N)%nat -> (0 < nth t L 0 + ln (X t 1 / X t 0) <-> evidence tr v sys par L N t 0 < evidence tr v sys par L N t 1).
Proof.
  intros Ht. rewrite lappr_eq by exact Ht. assert (HE : forall b, is_bit b -> 0 < evidence tr v sys par L N t b).
  { intros b Hb. rewrite evidence_X by assumption. apply Rmult_lt_0_compat; [apply pr_pos|apply X_pos; exact Hb]. }
  pose proof (HE 0%Z (or_introl eq_refl)) as H0. pose proof (HE 1%Z (or_intror eq_refl)) as H1.
  set (e0 := evidence _ _ _ _ _ _ _ 0) in *. set (e1 := evidence _ _ _ _ _ _ _ 1) in *. rewrite <- ln_1. split; intros H.
  - apply ln_lt_inv in H; [|lra|apply Rdiv_lt_0_compat; assumption]. apply (Rmult_lt_compat_r e0) in H; [|exact H0]. unfold Rdiv in H. rewrite Rmult_assoc, Rinv_l in H by lra. lra.
  - apply ln_increasing; [lra|]. apply (Rmult_lt_reg_r e0); [exact H0|]. unfold Rdiv. rewrite Rmult_assoc, Rinv_l by lra. lra.
Qed.

Lemma forward_ok decode cols : length cols = S N -> good_cols 0 cols -> forall t, (t <= N)%nat ->
  exists f0 Lx dec, foldM (forward_step tr decode L priors cols (map (fun t => map (bpf t) (branches tr)) (seq 0 N))) (seq 0 t)
      (upd (repeat 0 (number_states tr)) 0 1, repeat 0 N, repeat 0%Z N) = Ok (f0, Lx, dec) /\ good_f t f0 /\ length Lx = N /\ length dec = N /\
    (forall i, (i < t)%nat -> nth i Lx 0 = nth i L 0 + ln (X i 1 / X i 0)) /\
    (forall i, (i < t)%nat -> nth i dec 0%Z = if decode then if Rlt_dec 0 (nth i L 0 + ln (X i 1 / X i 0)) then 1%Z else 0%Z else 0%Z).
Proof.
  intros Hlc Hg. induction t as [|t IH]; intros Ht.
  - cbn [seq foldM]. eexists. eexists. eexists. split; [reflexivity|]. rewrite !repeat_length. split; [|split; [reflexivity|split; [reflexivity|split; intros; lia]]].
    split; [rewrite upd_length, repeat_length; reflexivity|]. exists 1. split; [lra|]. intros h. cbn [SS].
    rewrite (total_ext _ (fun s => if (s =? 0)%nat then h (Z.of_nat s) else 0)).
    + rewrite (total_single (fun s => h (Z.of_nat s))) by (pose proof NS_pos; lia). cbn. lra.
    + intros s Hs. apply in_seq in Hs. rewrite nth_upd, repeat_length, nth_repeat_same. unfold number_states. replace (0 <? NS)%nat with true by lia. rewrite andb_true_r. destruct (s =? 0)%nat; lra.
  - destruct (IH ltac:(lia)) as (f0 & Lx & dec & E & Hf & HlL & Hld & HL1 & HD1). rewrite <- Nat.add_1_r. rewrite seq_app, Nat.add_0_l.
    assert (HF : forall A C (f : C -> A -> res C) l l' c, foldM f (l ++ l') c = (x <- foldM f l c ;; foldM f l' x)).
    { intros A C f l. induction l as [|a l IHl]; intros l' c; [reflexivity|]. cbn [app foldM]. destruct (f c a); cbn [bind]; [apply IHl|reflexivity]. }
    rewrite HF, E. cbn [bind seq foldM]. clear HF. unfold forward_step at 1.
    rewrite (py_get_ok cols (t + 1) []) by lia. cbn [bind]. rewrite (py_get_ok _ t []) by (rewrite map_length, seq_length; lia). cbn [bind].
    rewrite nth_map_seq by lia.
    destruct (Hg (t + 1)%nat ltac:(lia)) as (Hlb & c & Hc & Hb). cbn [Nat.add] in Hb. rewrite Nat.add_1_r in *.
    destruct (forward_column_ok t f0 (nth (S t) cols []) c ltac:(lia) Hf Hlb Hc Hb) as (f1 & a0 & a1 & d & E1 & Hl1 & Hd & Hf1 & e & He & Ha0 & Ha1).
    rewrite E1. cbn [bind]. rewrite (py_get_ok L t 0) by lia. cbn [bind].
    change (py_get [a0; a1] 1) with (Ok (A := R) a1). change (py_get [a0; a1] 0) with (Ok (A := R) a0). cbn [bind].
    rewrite py_set_ok by lia. cbn [bind].
    assert (Hr : a1 / a0 = X t 1 / X t 0).
    { rewrite Ha0, Ha1. fold (X t 0) (X t 1). pose proof (X_pos t 0 (or_introl eq_refl)). field. lra. }
    rewrite Hr. set (la := nth t L 0 + ln (X t 1 / X t 0)).
    assert (HfS : good_f (S t) (normalise f1)).
    { assert (HS : 0 < Rsum f1).
      { rewrite Rsum_total, Hl1. rewrite (total_ext _ (fun s => nth s f1 0 * 1)) by (intros; lra). rewrite (Hf1 (fun _ => 1)). apply Rmult_lt_0_compat; [exact Hd|].
        apply SS_pos; [exact zero_in|]. intros; lra. }
      split; [unfold normalise; rewrite map_length; exact Hl1|]. exists (d / Rsum f1). split; [apply Rdiv_lt_0_compat; assumption|]. intros h.
      replace (d / Rsum f1 * SS 0 (S t) 0 h) with (/ Rsum f1 * (d * SS 0 (S t) 0 h)) by (field; lra). rewrite <- Hf1, <- total_mul. apply total_ext. intros s Hs. apply in_seq in Hs.
      unfold normalise. rewrite (nth_map_lt _ f1 s 0) by lia. field. lra. }
    assert (HLx : forall i, (i < S t)%nat -> nth i (upd Lx t la) 0 = nth i L 0 + ln (X i 1 / X i 0)).
    { intros i Hi. rewrite nth_upd, HlL. replace (t <? N)%nat with true by lia. rewrite andb_true_r. destruct (Nat.eqb_spec i t) as [->|]; [reflexivity|apply HL1; lia]. }
    destruct decode.
    + rewrite py_set_ok by lia. cbn [bind]. eexists. eexists. eexists. split; [reflexivity|]. rewrite !upd_length. split; [exact HfS|]. split; [exact HlL|]. split; [exact Hld|]. split; [exact HLx|].
      intros i Hi. rewrite nth_upd, Hld. replace (t <? N)%nat with true by lia. rewrite andb_true_r. destruct (Nat.eqb_spec i t) as [->|]; [reflexivity|apply HD1; lia].
    + cbn [bind]. eexists. eexists. eexists. split; [reflexivity|]. rewrite !upd_length. split; [exact HfS|]. split; [exact HlL|]. split; [exact Hld|]. split; [exact HLx|].
      intros i Hi. destruct (Nat.eq_dec i t) as [->|]; [|apply HD1; lia].
      assert (Hz : forall st l x, foldM (forward_step tr false L priors cols (map (fun t => map (bpf t) (branches tr)) (seq 0 N))) l st = Ok x -> snd x = snd st).
      { intros st l. revert st. induction l as [|y l IHl]; intros st x H; cbn [foldM] in H; [injection H as <-; reflexivity|].
        destruct (forward_step _ _ _ _ _ _ st y) as [st'|] eqn:Es; cbn [bind] in H; [|discriminate]. rewrite (IHl _ _ H). destruct st as [[g0 g1] g2]. unfold forward_step in Es.
        repeat (match type of Es with bind ?q _ = _ => destruct q as [?|?]; cbn [bind] in Es; [|discriminate] | (let '(_, _) := ?q in _) = _ => destruct q end). injection Es as <-. reflexivity. }
      specialize (Hz _ _ _ E). cbn [snd] in Hz. rewrite Hz. apply nth_repeat_same.
Qed.

Lemma map_decode_ok decode : exists Lx dec, map_decode sys par tr v L decode = Ok (Lx, dec) /\ length Lx = N /\ length dec = N /\
  (forall i, (i < N)%nat -> nth i Lx 0 = nth i L 0 + ln (X i 1 / X i 0)) /\
  (forall i, (i < N)%nat -> nth i dec 0%Z = if decode then if Rlt_dec 0 (nth i L 0 + ln (X i 1 / X i 0)) then 1%Z else 0%Z else 0%Z).
Proof.
  unfold map_decode. rewrite Hsys. unfold broadcast. rewrite map_length, HL, Nat.eqb_refl. cbn [bind]. fold p0. fold priors.
  destruct (backward_ok N 0 eq_refl) as (cols & E & Hlc & Hg). rewrite E. cbn [bind].
  destruct (forward_ok decode cols Hlc Hg N ltac:(lia)) as (f0 & Lx & dec & E2 & _ & H). rewrite E2. cbn [bind]. exists Lx, dec. split; [reflexivity|exact H].
Qed.
End Map.
