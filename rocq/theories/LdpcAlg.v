(* Exact linear algebra behind build_matrix: solving over the rationals, integrality, parity. *)
From Coq Require Import QArith Qround Lqa Field.
From Verif Require Import Base LdpcModel.
Open Scope Q_scope.

(* ---------------------------------------------------------------- sums *)
Definition Qsum (f : nat -> Q) (n : nat) : Q := fold_right (fun i s => f i + s) 0 (seq 0 n).

Lemma fold_seq_shift (f : nat -> Q) a n : fold_right (fun i s => f i + s) 0 (seq (S a) n) = fold_right (fun i s => f (S i) + s) 0 (seq a n).
Proof. revert a. induction n as [|n IH]; intros a; [reflexivity|]. cbn [seq fold_right]. rewrite IH. reflexivity. Qed.
Lemma Qsum_S f n : Qsum f (S n) = f 0%nat + Qsum (fun i => f (S i)) n.
Proof. unfold Qsum. cbn [seq fold_right]. rewrite fold_seq_shift. reflexivity. Qed.
Lemma Qsum_ext f g n : (forall i, (i < n)%nat -> f i == g i) -> Qsum f n == Qsum g n.
Proof. revert f g. induction n as [|n IH]; intros f g H; [reflexivity|]. rewrite !Qsum_S. rewrite (H 0%nat) by lia. rewrite (IH (fun i => f (S i)) (fun i => g (S i))); [reflexivity|]. intros i Hi. apply H. lia. Qed.
Lemma Qsum_add f g n : Qsum (fun i => f i + g i) n == Qsum f n + Qsum g n.
Proof. revert f g. induction n as [|n IH]; intros f g; [reflexivity|]. rewrite !Qsum_S, IH. ring. Qed.
Lemma Qsum_scale a f n : Qsum (fun i => a * f i) n == a * Qsum f n.
Proof. revert f. induction n as [|n IH]; intros f; [unfold Qsum; cbn; ring|]. rewrite !Qsum_S, IH. ring. Qed.
Lemma Qsum_0 n : Qsum (fun _ => 0) n == 0.
Proof. induction n as [|n IH]; [reflexivity|]. rewrite Qsum_S, IH. reflexivity. Qed.
Lemma Qsum_swap (f : nat -> nat -> Q) n m : Qsum (fun i => Qsum (f i) m) n == Qsum (fun j => Qsum (fun i => f i j) n) m.
Proof.
  revert f. induction n as [|n IH]; intros f; [unfold Qsum at 1; cbn; rewrite Qsum_0; reflexivity|]. rewrite Qsum_S, IH, <- Qsum_add. apply Qsum_ext. intros j _. rewrite Qsum_S. reflexivity.
Qed.
Lemma Qsum_single f n k : (k < n)%nat -> (forall i, (i < n)%nat -> i <> k -> f i == 0) -> Qsum f n == f k.
Proof.
  revert f k. induction n as [|n IH]; intros f k Hk H; [lia|]. rewrite Qsum_S. destruct k as [|k].
  - rewrite (Qsum_ext _ (fun _ => 0)), Qsum_0; [ring|]. intros i Hi. apply H; lia.
  - rewrite (H 0%nat) by lia. rewrite (IH (fun i => f (S i)) k); [ring|lia|]. intros i Hi Hn. apply H; lia.
Qed.

Definition qn (l : list Q) (i : nat) : Q := nth i l 0.
Definition qe (A : list (list Q)) (i j : nat) : Q := nth j (nth i A []) 0.

Lemma qdot_sum r x n : length r = n -> length x = n -> qdot r x == Qsum (fun i => qn r i * qn x i) n.
Proof.
  revert r x. induction n as [|n IH]; intros [|a r] [|b x] Hr Hx; cbn in Hr, Hx; try lia; [reflexivity|]. cbn [qdot]. rewrite Qsum_S, (IH r x) by lia. reflexivity.
Qed.
Lemma qdot_zip f t cs z : length t = length cs -> qdot (zip_sub f t cs) z == qdot t z - f * qdot cs z.
Proof.
  revert cs z. induction t as [|a t IH]; intros [|c cs] z H; cbn in H; try lia; [cbn; ring|]. destruct z as [|b z]; cbn [zip_sub qdot]; [ring|]. rewrite IH by lia. rewrite Qred_correct. ring.
Qed.
Lemma zip_sub_length f t cs : length t = length cs -> length (zip_sub f t cs) = length t.
Proof. revert cs. induction t as [|a t IH]; intros [|c cs] H; cbn in *; try lia. rewrite IH by lia. reflexivity. Qed.
Lemma qdot_zeros r n : qdot r (repeat 0 n) == 0.
Proof. revert n. induction r as [|a r IH]; intros [|n]; cbn; try reflexivity. rewrite IH. ring. Qed.

(* ---------------------------------------------------------------- elimination *)
Definition rows_wf (n : nat) (rows : list (list Q * Q)) : Prop := Forall (fun r => length (fst r) = n) rows.

Lemma pivot_some n rows a cs b others : rows_wf (S n) rows -> pivot rows = Some ((a, cs, b), others) ->
  ~ a == 0 /\ length cs = n /\ rows_wf (S n) others /\ length rows = S (length others) /\ (forall r, In r rows <-> r = (a :: cs, b) \/ In r others).
Proof.
  revert others. induction rows as [|[[|h t] v] rows IH]; intros others HW E; cbn [pivot] in E; try discriminate.
  inversion HW as [|x l Hh HW' Ex]; subst. cbn in Hh. destruct (Qeq_bool h 0) eqn:Ez.
  - destruct (pivot rows) as [[[[a' cs'] b'] oth]|] eqn:Ep; [|discriminate]. injection E as <- <- <- <-.
    destruct (IH oth HW' eq_refl) as (H1 & H2 & H3 & H4 & H5). split; [exact H1|]. split; [exact H2|]. split; [constructor; [cbn; lia|exact H3]|]. split; [cbn; lia|].
    intros r. cbn [In]. rewrite H5. tauto.
  - injection E as <- <- <- <-. split; [apply Qeq_bool_neq; exact Ez|]. split; [lia|]. split; [exact HW'|]. split; [reflexivity|]. intros r. cbn [In]. split; intros [H|H]; auto.
Qed.
Lemma pivot_none n rows : rows_wf (S n) rows -> pivot rows = None -> forall r, In r rows -> exists t, exists h, fst r = h :: t /\ h == 0.
Proof.
  induction rows as [|[[|h t] v] rows IH]; intros HW E r Hr; [destruct Hr| |]; inversion HW as [|x l Hh HW' Ex]; subst; cbn in Hh; [lia|]. cbn [pivot] in E.
  destruct (Qeq_bool h 0) eqn:Ez; [|discriminate]. destruct (pivot rows) as [[[[a' cs'] b'] oth]|] eqn:Ep; [discriminate|].
  destruct Hr as [<-|Hr]; [exists t, h; split; [reflexivity|apply Qeq_bool_iff; exact Ez]|exact (IH HW' eq_refl r Hr)].
Qed.

Lemma solve_spec n : forall rows, rows_wf n rows -> length rows = n ->
  match solve n rows with
  | Some x => length x = n /\ forall r, In r rows -> qdot (fst r) x == snd r
  | None => exists z, length z = n /\ (exists i, ~ qn z i == 0) /\ forall r, In r rows -> qdot (fst r) z == 0
  end.
Proof.
  induction n as [|n IH]; intros rows HW HL.
  { cbn [solve]. split; [reflexivity|]. destruct rows; [intros r []|cbn in HL; lia]. }
  cbn [solve]. destruct (pivot rows) as [[[[a cs] b] others]|] eqn:Ep.
  - destruct (pivot_some n rows a cs b others HW Ep) as (Ha & Hcs & HW' & HL' & HI).
    assert (HWe : rows_wf n (map (elim a cs b) others)).
    { apply Forall_map. eapply Forall_impl; [|exact HW']. intros [[|h t] v] Hh; cbn in Hh |- *; [lia|]. rewrite zip_sub_length by lia. lia. }
    specialize (IH (map (elim a cs b) others) HWe ltac:(rewrite map_length; lia)).
    assert (Hel : forall z v0, (forall r, In r (map (elim a cs b) others) -> qdot (fst r) z == v0 * snd r) -> forall h t v, In (h :: t, v) others ->
              qdot t z == v0 * v - h / a * (v0 * b - qdot cs z)).
    { intros z v0 H h t v Hr. assert (Hlt : length t = length cs) by (pose proof (proj1 (Forall_forall _ _) HW' _ Hr) as Hq; cbn in Hq; lia).
      specialize (H _ (in_map (elim a cs b) _ _ Hr)). cbn [elim fst snd] in H. rewrite qdot_zip in H by exact Hlt. rewrite !Qred_correct in H.
      setoid_replace (qdot t z) with (qdot t z - h / a * qdot cs z + h / a * qdot cs z) by ring. rewrite H. ring. }
    destruct (solve n (map (elim a cs b) others)) as [xs|].
    + destruct IH as [Hx HE]. split; [cbn; lia|]. intros r Hr. apply HI in Hr. destruct Hr as [-> | Hr].
      * cbn [fst snd qdot]. rewrite Qred_correct. field. exact Ha.
      * pose proof (proj1 (Forall_forall _ _) HW' _ Hr) as Hq. destruct r as [[|h t] v]; cbn in Hq; [lia|]. cbn [fst snd qdot]. rewrite Qred_correct.
        rewrite (Hel xs 1 ltac:(intros r Hi; rewrite (HE r Hi); ring) h t v Hr). field. exact Ha.
    + destruct IH as (z & Hz & (i & Hi) & HE). exists (- qdot cs z / a :: z). split; [cbn; lia|]. split; [exists (S i); exact Hi|].
      intros r Hr. apply HI in Hr. destruct Hr as [-> | Hr].
      * cbn [fst snd qdot]. field. exact Ha.
      * pose proof (proj1 (Forall_forall _ _) HW' _ Hr) as Hq. destruct r as [[|h t] v]; cbn in Hq; [lia|]. cbn [fst snd qdot].
        rewrite (Hel z 0 ltac:(intros r Hi'; rewrite (HE r Hi'); ring) h t v Hr). field. exact Ha.
  - exists (1 :: repeat 0 n). split; [cbn; rewrite repeat_length; reflexivity|]. split; [exists 0%nat; cbn; discriminate|]. intros r Hr.
    destruct (pivot_none n rows HW Ep r Hr) as (t & h & Hf & Hh). rewrite Hf. cbn [qdot]. rewrite qdot_zeros, Hh. ring.
Qed.

Lemma solve_inj n : forall rows x, rows_wf n rows -> solve n rows = Some x -> forall z, length z = n -> (forall r, In r rows -> qdot (fst r) z == 0) -> Forall (fun q => q == 0) z.
Proof.
  induction n as [|n IH]; intros rows x HW E z Hz HK; [destruct z; [constructor|cbn in Hz; lia]|]. cbn [solve] in E.
  destruct (pivot rows) as [[[[a cs] b] others]|] eqn:Ep; [|discriminate]. destruct (pivot_some n rows a cs b others HW Ep) as (Ha & Hcs & HW' & HL' & HI).
  destruct (solve n (map (elim a cs b) others)) as [xs|] eqn:Es; [|discriminate]. destruct z as [|z0 z]; [cbn in Hz; lia|].
  assert (HWe : rows_wf n (map (elim a cs b) others)).
  { apply Forall_map. eapply Forall_impl; [|exact HW']. intros [[|h t] v] Hh; cbn in Hh |- *; [lia|]. rewrite zip_sub_length by lia. lia. }
  assert (H0 : a * z0 + qdot cs z == 0) by (exact (HK (a :: cs, b) (proj2 (HI _) (or_introl eq_refl)))).
  assert (Hz' : Forall (fun q => q == 0) z).
  { apply (IH _ xs HWe Es); [cbn in Hz; lia|]. intros r Hr. apply in_map_iff in Hr. destruct Hr as ([[|h t] v] & <- & Hr).
    - pose proof (proj1 (Forall_forall _ _) HW' _ Hr) as Hq. cbn in Hq. lia.
    - pose proof (proj1 (Forall_forall _ _) HW' _ Hr) as Hq. cbn in Hq. pose proof (HK _ (proj2 (HI _) (or_intror Hr))) as H1. cbn [fst qdot] in H1. cbn [elim fst snd]. rewrite qdot_zip by lia. rewrite Qred_correct.
      setoid_replace (qdot t z - h / a * qdot cs z) with (h * z0 + qdot t z - h / a * (a * z0 + qdot cs z)) by (field; exact Ha). rewrite H0, H1. ring. }
  constructor; [|exact Hz']. assert (Hc : qdot cs z == 0).
  { clear - Hz'. revert cs. induction Hz' as [|q z Hq _ IH]; intros [|c cs]; cbn [qdot]; try reflexivity. rewrite Hq, IH. ring. }
  rewrite Hc in H0. setoid_replace z0 with ((a * z0 + 0) / a) by (field; exact Ha). rewrite H0. unfold Qdiv. ring.
Qed.

(* ---------------------------------------------------------------- the inverse *)
Definition square (m : nat) (S : list (list Q)) : Prop := length S = m /\ forall i, (i < m)%nat -> length (nth i S []) = m.
(* S x = 0 only for x = 0 *)
Definition injective (m : nat) (S : list (list Q)) : Prop :=
  forall x : nat -> Q, (forall i, (i < m)%nat -> Qsum (fun l => qe S i l * x l) m == 0) -> forall l, (l < m)%nat -> x l == 0.

Lemma all_some_spec {A} (l : list (option A)) : match all_some l with Some r => l = map Some r | None => In None l end.
Proof. induction l as [|[a|] l IH]; cbn [all_some]; [reflexivity| |left; reflexivity]. destruct (all_some l); [cbn; rewrite IH; reflexivity|right; exact IH]. Qed.

Lemma square_wf m S v : square m S -> length v = m -> rows_wf m (combine S v) /\ length (combine S v) = m.
Proof.
  intros [HL HR] Hv. split; [|rewrite combine_length; lia]. apply Forall_forall. intros [r b] Hr. apply in_combine_l in Hr. cbn [fst].
  apply (In_nth _ _ []) in Hr. destruct Hr as (i & Hi & <-). apply HR. lia.
Qed.
Lemma combine_in m (S : list (list Q)) v i : length S = m -> length v = m -> (i < m)%nat -> In (nth i S [], nth i v 0) (combine S v).
Proof. intros HS Hv Hi. rewrite <- combine_nth by lia. apply nth_In. rewrite combine_length. lia. Qed.

Lemma solve_square m S v : square m S -> length v = m ->
  match solve m (combine S v) with
  | Some x => length x = m /\ forall i, (i < m)%nat -> Qsum (fun l => qe S i l * qn x l) m == nth i v 0
  | None => ~ injective m S
  end.
Proof.
  intros HS Hv. destruct (square_wf m S v HS Hv) as [HW HL]. pose proof (solve_spec m _ HW HL) as H. destruct HS as [HSl HSr]. destruct (solve m (combine S v)) as [x|].
  - destruct H as [Hx H]. split; [exact Hx|]. intros i Hi. specialize (H _ (combine_in m S v i HSl Hv Hi)). cbn [fst snd] in H. rewrite (qdot_sum _ _ m) in H by (try exact Hx; apply HSr; exact Hi). exact H.
  - destruct H as (z & Hz & (i & Hi) & H). intros HJ. apply Hi. assert (Hlt : (i < m)%nat \/ (m <= i)%nat) by lia. destruct Hlt as [Hlt|Hge]; [|unfold qn; rewrite nth_overflow by lia; reflexivity].
    apply (HJ (qn z)); [|exact Hlt]. intros j Hj. specialize (H _ (combine_in m S v j HSl Hv Hj)). cbn [fst snd] in H. rewrite (qdot_sum _ _ m) in H by (try exact Hz; apply HSr; exact Hj). exact H.
Qed.

Lemma inv_matrix_spec m S : square m S ->
  match inv_matrix S with
  | Some B => square m B /\ forall i j, (i < m)%nat -> (j < m)%nat -> Qsum (fun l => qe S i l * qe B l j) m == if (i =? j)%nat then 1 else 0
  | None => ~ injective m S
  end.
Proof.
  intros HS. pose proof HS as [HSl HSr]. unfold inv_matrix. rewrite HSl. pose proof (all_some_spec (map (fun j => solve m (combine S (unitv m j))) (seq 0 m))) as HA.
  assert (Hu : forall j, length (unitv m j) = m) by (intros j; unfold unitv; apply map_seq_length).
  destruct (all_some _) as [cols|].
  - assert (Hc : length cols = m) by (rewrite <- (map_length Some cols), <- HA; apply map_seq_length).
    assert (HB : forall j, (j < m)%nat -> solve m (combine S (unitv m j)) = Some (nth j cols [])).
    { intros j Hj. rewrite <- (nth_map_lt Some cols j [] None) by lia. rewrite <- HA. symmetry. apply (nth_map_seq (fun j => solve m (combine S (unitv m j)))). exact Hj. }
    assert (HE : forall l j, (l < m)%nat -> (j < m)%nat -> qe (transpose m cols) l j = qn (nth j cols []) l).
    { intros l j Hl Hj. unfold qe, transpose. rewrite (nth_map_seq (fun j0 => map (fun r => nth j0 r 0) cols)) by exact Hl. rewrite (nth_map_lt (fun r => nth l r 0) cols j []) by lia. reflexivity. }
    split.
    + split; [unfold transpose; apply map_seq_length|]. intros i Hi. unfold transpose. rewrite (nth_map_seq (fun j0 => map (fun r => nth j0 r 0) cols)) by exact Hi. rewrite map_length. exact Hc.
    + intros i j Hi Hj. pose proof (solve_square m S (unitv m j) HS (Hu j)) as Hs. rewrite (HB j Hj) in Hs. destruct Hs as [Hx Hs].
      rewrite (Qsum_ext _ (fun l => qe S i l * qn (nth j cols []) l)) by (intros l Hl; rewrite HE by assumption; reflexivity).
      rewrite Hs by exact Hi. unfold unitv. rewrite (nth_map_seq (fun i0 => if (i0 =? j)%nat then 1 else 0)) by exact Hi. reflexivity.
  - apply in_map_iff in HA. destruct HA as (j & Hj & _). pose proof (solve_square m S (unitv m j) HS (Hu j)) as Hs. rewrite Hj in Hs. exact Hs.
Qed.

Lemma inv_matrix_injective m S B : (1 <= m)%nat -> square m S -> inv_matrix S = Some B -> injective m S.
Proof.
  intros Hm HS E z Hz. pose proof HS as [HSl HSr]. unfold inv_matrix in E. rewrite HSl in E. pose proof (all_some_spec (map (fun j => solve m (combine S (unitv m j))) (seq 0 m))) as HA.
  destruct (all_some _) as [cols|]; [|discriminate].
  assert (Hu : length (unitv m 0) = m) by (unfold unitv; apply map_seq_length). destruct (square_wf m S _ HS Hu) as [HW HL].
  destruct (solve m (combine S (unitv m 0))) as [x|] eqn:Es.
  2: { exfalso. assert (Hn : nth 0 (map (fun j => solve m (combine S (unitv m j))) (seq 0 m)) (Some []) = None) by (rewrite (nth_map_seq (fun j => solve m (combine S (unitv m j)))) by lia; exact Es).
       rewrite HA in Hn. destruct cols; discriminate. }
  set (zl := map z (seq 0 m)). assert (Hzl : length zl = m) by (unfold zl; apply map_seq_length).
  assert (HF : Forall (fun q => q == 0) zl).
  { apply (solve_inj m _ x HW Es); [exact Hzl|]. intros [r b] Hr. apply in_combine_l in Hr. apply (In_nth _ _ []) in Hr. destruct Hr as (i & Hi & <-). cbn [fst].
    rewrite (qdot_sum _ _ m) by (try exact Hzl; apply HSr; lia). rewrite <- (Hz i) by lia. apply Qsum_ext. intros l Hl. unfold qn at 2, zl. rewrite (nth_map_seq z) by exact Hl. reflexivity. }
  intros l Hl. rewrite Forall_forall in HF. apply HF. unfold zl. apply in_map. apply in_seq. lia.
Qed.

(* generator = inv(S) P satisfies S G = P *)
Lemma gen_spec m k S B P : square m S -> inv_matrix S = Some B -> length P = m -> (forall i, (i < m)%nat -> length (nth i P []) = k) ->
  let G := matmul B k P in
  length G = m /\ (forall i, (i < m)%nat -> length (nth i G []) = k) /\
  forall i j, (i < m)%nat -> (j < k)%nat -> Qsum (fun l => qe S i l * qe G l j) m == qe P i j.
Proof.
  intros HS E HP HPr G. pose proof (inv_matrix_spec m S HS) as H. rewrite E in H. destruct H as [[HBl HBr] H].
  assert (HG : forall l, (l < m)%nat -> nth l G [] = map (qdot (nth l B [])) (transpose k P)).
  { intros l Hl. unfold G, matmul. rewrite (nth_map_lt (fun r => map (qdot r) (transpose k P)) B l []) by lia. reflexivity. }
  assert (HGe : forall l j, (l < m)%nat -> (j < k)%nat -> qe G l j == Qsum (fun q => qe B l q * qe P q j) m).
  { intros l j Hl Hj. unfold qe at 1. rewrite HG by exact Hl. rewrite (nth_map_lt _ _ j []) by (unfold transpose; rewrite map_seq_length; exact Hj).
    unfold transpose. rewrite (nth_map_seq (fun j0 => map (fun r => nth j0 r 0) P)) by exact Hj. rewrite (qdot_sum _ _ m) by (try (apply HBr; exact Hl); rewrite map_length; exact HP).
    apply Qsum_ext. intros q Hq. unfold qn at 2. rewrite (nth_map_lt (fun r => nth j r 0) P q []) by lia. reflexivity. }
  split; [unfold G, matmul; rewrite map_length; exact HBl|]. split; [intros i Hi; rewrite HG by exact Hi; unfold transpose; rewrite !map_length, seq_length; reflexivity|].
  intros i j Hi Hj. rewrite (Qsum_ext _ (fun l => Qsum (fun q => qe S i l * qe B l q * qe P q j) m)).
  2: { intros l Hl. rewrite HGe by assumption. rewrite <- Qsum_scale. apply Qsum_ext. intros q _. ring. }
  rewrite Qsum_swap. rewrite (Qsum_ext _ (fun q => (if (i =? q)%nat then 1 else 0) * qe P q j)).
  2: { intros q Hq. rewrite (Qsum_ext _ (fun l => qe P q j * (qe S i l * qe B l q))) by (intros; ring). rewrite Qsum_scale, H by assumption. ring. }
  rewrite (Qsum_single _ _ i); [rewrite Nat.eqb_refl; ring|exact Hi|]. intros q _ Hq. apply Nat.neq_sym, Nat.eqb_neq in Hq. rewrite Hq. ring.
Qed.

(* ---------------------------------------------------------------- integrality *)
Definition isint (q : Q) : Prop := exists z, q == inject_Z z.
(* every rational vector with an integer image is an integer vector *)
Definition integral (m : nat) (S : list (list Q)) : Prop :=
  forall x : nat -> Q, (forall i, (i < m)%nat -> isint (Qsum (fun l => qe S i l * x l) m)) -> forall l, (l < m)%nat -> isint (x l).

Lemma isint_Z z : isint (inject_Z z). Proof. exists z. reflexivity. Qed.
Lemma isint_add a b : isint a -> isint b -> isint (a + b).
Proof. intros [x Hx] [y Hy]. exists (x + y)%Z. rewrite inject_Z_plus, Hx, Hy. reflexivity. Qed.
Lemma isint_mul a b : isint a -> isint b -> isint (a * b).
Proof. intros [x Hx] [y Hy]. exists (x * y)%Z. rewrite inject_Z_mult, Hx, Hy. reflexivity. Qed.
Lemma isint_opp a : isint a -> isint (- a).
Proof. intros [x Hx]. exists (- x)%Z. rewrite inject_Z_opp, Hx. reflexivity. Qed.
Lemma isint_sub a b : isint a -> isint b -> isint (a - b).
Proof. intros Ha Hb. apply isint_add; [exact Ha|apply isint_opp; exact Hb]. Qed.
Lemma isint_eq a b : a == b -> isint b -> isint a. Proof. intros E [z Hz]. exists z. rewrite E. exact Hz. Qed.
Lemma isint_sum f n : (forall i, (i < n)%nat -> isint (f i)) -> isint (Qsum f n).
Proof. revert f. induction n as [|n IH]; intros f H; [exists 0%Z; reflexivity|]. rewrite Qsum_S. apply isint_add; [apply H; lia|apply IH; intros i Hi; apply H; lia]. Qed.

Lemma integral_injective m S : integral m S -> injective m S.
Proof.
  intros H x Hx l Hl. destruct (x l) as [a d] eqn:Ex. assert (Ha : a = 0%Z); [|subst a; reflexivity].
  (* scale x l so that it would be a proper fraction *)
  destruct (Z.eq_dec a 0) as [|Hne]; [assumption|exfalso].
  set (N := (2 * Z.abs a)%Z). assert (HN : ~ inject_Z N == 0) by (intros E; unfold Qeq in E; cbn [Qnum Qden inject_Z] in E; unfold N in E; lia).
  destruct (H (fun i => x i / inject_Z N)) with (l := l) as [z Hz]; [|exact Hl|].
  - intros i Hi. exists 0%Z. rewrite (Qsum_ext _ (fun l => / inject_Z N * (qe S i l * x l))) by (intros; unfold Qdiv; ring). rewrite Qsum_scale, Hx by exact Hi. ring.
  - cbn beta in Hz. assert (Hz' : x l == inject_Z (z * N)) by (rewrite inject_Z_mult, <- Hz; field; exact HN).
    rewrite Ex in Hz'. unfold Qeq in Hz'. cbn [Qnum Qden inject_Z] in Hz'. unfold N in Hz'. clear - Hz' Hne.
    assert (Hd : (0 < Z.pos d)%Z) by lia. destruct (Z.eq_dec z 0) as [-> |Hz0]; [rewrite Z.mul_0_l in Hz'; lia|].
    assert (Z.abs a * 1 = Z.abs z * (2 * Z.abs a) * Z.pos d)%Z by (rewrite <- (Z.abs_eq 1), <- Z.abs_mul by lia; rewrite Hz', !Z.abs_mul, Z.abs_involutive; cbn; lia).
    assert (1 <= Z.abs z * Z.pos d)%Z by (apply (Zmult_le_compat 1 1 (Z.abs z)); lia).
    assert (2 * Z.abs a * 1 <= 2 * Z.abs a * (Z.abs z * Z.pos d))%Z by (apply Z.mul_le_mono_nonneg_l; lia). lia.
Qed.

Definition int_entries (m : nat) (S : list (list Q)) : Prop := forall i l, (i < m)%nat -> (l < m)%nat -> isint (qe S i l).

(* an integer left inverse *)
Lemma left_inverse_integral m S (B : nat -> nat -> Z) :
  (forall i l, (i < m)%nat -> (l < m)%nat -> Qsum (fun q => inject_Z (B i q) * qe S q l) m == if (i =? l)%nat then 1 else 0) -> integral m S.
Proof.
  intros HB x Hx l Hl. apply (isint_eq _ (Qsum (fun i => inject_Z (B l i) * Qsum (fun q => qe S i q * x q) m) m)).
  2: { apply isint_sum. intros i Hi. apply isint_mul; [apply isint_Z|apply Hx; exact Hi]. }
  symmetry. rewrite (Qsum_ext _ (fun i => Qsum (fun q => inject_Z (B l i) * qe S i q * x q) m)) by (intros i _; rewrite <- Qsum_scale; apply Qsum_ext; intros; ring).
  rewrite Qsum_swap. rewrite (Qsum_ext _ (fun q => (if (l =? q)%nat then 1 else 0) * x q)).
  2: { intros q Hq. rewrite (Qsum_ext _ (fun i => x q * (inject_Z (B l i) * qe S i q))) by (intros; ring). rewrite Qsum_scale, HB by assumption. ring. }
  rewrite (Qsum_single _ _ l); [rewrite Nat.eqb_refl; ring|exact Hl|]. intros q _ Hq. apply Nat.neq_sym, Nat.eqb_neq in Hq. rewrite Hq. ring.
Qed.

Lemma Qsum_remove f m i : (i < m)%nat -> Qsum f m == f i + Qsum (fun l => if (l =? i)%nat then 0 else f l) m.
Proof.
  intros Hi. rewrite (Qsum_ext f (fun l => (if (l =? i)%nat then f l else 0) + (if (l =? i)%nat then 0 else f l))) by (intros l _; destruct (l =? i)%nat; ring).
  rewrite Qsum_add. rewrite (Qsum_single (fun l => if (l =? i)%nat then f l else 0) m i Hi) by (intros l _ Hl; apply Nat.eqb_neq in Hl; rewrite Hl; reflexivity).
  rewrite Nat.eqb_refl. reflexivity.
Qed.

(* one step of substitution *)
Lemma subst_step m S x i : (i < m)%nat -> qe S i i == 1 \/ qe S i i == -1 -> int_entries m S -> isint (Qsum (fun l => qe S i l * x l) m) ->
  (forall l, (l < m)%nat -> l <> i -> isint (x l) \/ qe S i l == 0) -> isint (x i).
Proof.
  intros Hi Hd HZ HS Hx. apply (isint_eq _ _ (Qeq_sym _ _ (Qsum_remove _ m i Hi))) in HS.
  assert (HR : isint (Qsum (fun l => if (l =? i)%nat then 0 else qe S i l * x l) m)).
  { apply isint_sum. intros l Hl. destruct (Nat.eqb_spec l i) as [_|Hn]; [exists 0%Z; reflexivity|]. destruct (Hx l Hl Hn) as [H|H]; [apply isint_mul; [apply HZ; assumption|exact H]|exists 0%Z; rewrite H; ring]. }
  pose proof (isint_sub _ _ HS HR) as HD. destruct Hd as [Hd|Hd]; [apply (isint_eq _ (qe S i i * x i + Qsum (fun l => if (l =? i)%nat then 0 else qe S i l * x l) m - Qsum (fun l => if (l =? i)%nat then 0 else qe S i l * x l) m)); [rewrite Hd; ring|exact HD]|].
  apply isint_opp in HD. apply (isint_eq _ (- (qe S i i * x i + Qsum (fun l => if (l =? i)%nat then 0 else qe S i l * x l) m - Qsum (fun l => if (l =? i)%nat then 0 else qe S i l * x l) m))); [rewrite Hd; ring|exact HD].
Qed.

Lemma lower_integral m S : int_entries m S -> (forall i, (i < m)%nat -> qe S i i == 1) -> (forall i l, (i < m)%nat -> (l < m)%nat -> (i < l)%nat -> qe S i l == 0) -> integral m S.
Proof.
  intros HZ Hd HT x Hx. assert (H : forall b l, (l < b)%nat -> (l < m)%nat -> isint (x l)); [|intros l Hl; exact (H m l Hl Hl)].
  induction b as [|b IH]; intros l Hb Hl; [lia|]. apply (subst_step m S); [exact Hl|left; apply Hd; exact Hl|exact HZ|apply Hx; exact Hl|].
  intros q Hq Hn. destruct (Nat.lt_ge_cases q l) as [Hlt|Hge]; [left; apply IH; lia|right; apply HT; lia].
Qed.
Lemma upper_integral m S : int_entries m S -> (forall i, (i < m)%nat -> qe S i i == 1) -> (forall i l, (i < m)%nat -> (l < m)%nat -> (l < i)%nat -> qe S i l == 0) -> integral m S.
Proof.
  intros HZ Hd HT x Hx. assert (H : forall b l, (m - l <= b)%nat -> (l < m)%nat -> isint (x l)); [|intros l Hl; exact (H m l ltac:(lia) Hl)].
  induction b as [|b IH]; intros l Hb Hl; [lia|]. apply (subst_step m S); [exact Hl|left; apply Hd; exact Hl|exact HZ|apply Hx; exact Hl|].
  intros q Hq Hn. destruct (Nat.lt_ge_cases l q) as [Hlt|Hge]; [left; apply IH; lia|right; apply HT; lia].
Qed.

(* ---------------------------------------------------------------- parity *)
Lemma qmod2_int_Z q z : q == inject_Z z -> qmod2_int q = (z mod 2)%Z.
Proof.
  intros E. unfold qmod2_int. assert (H : Qfloor (q / 2) = (z / 2)%Z).
  { rewrite (Qfloor_comp (q / 2) (inject_Z z / 2)) by (rewrite E; reflexivity). unfold Qfloor, Qdiv, Qmult, Qinv, inject_Z. cbn. rewrite Z.mul_1_r. reflexivity. }
  rewrite H. rewrite (Qfloor_comp _ (inject_Z (z mod 2))); [apply Qfloor_Z|]. rewrite E. rewrite Z.mod_eq by lia. unfold Z.sub. rewrite inject_Z_plus, inject_Z_opp, inject_Z_mult. reflexivity.
Qed.
