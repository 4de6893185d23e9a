From Verif Require Import Base PunctModel.

(* position i is kept *)
Definition kept (pv : list Z) (i : nat) : bool := nth (i mod length pv) pv 0 =? 1.

(* value of [shift] when the loop reaches idx *)
Definition shift_at (N i : nat) : Z := if (i =? 0)%nat then 0 else Z.of_nat ((i - 1) / N) + 1.

Lemma shift_at_S N i : (1 <= N)%nat ->
  (if Z.of_nat i mod Z.of_nat N =? 0 then shift_at N i + 1 else shift_at N i) = shift_at N (S i).
Proof.
  intros HN. unfold shift_at. cbn [Nat.eqb]. replace (S i - 1)%nat with i by lia.
  rewrite <- Nat2Z.inj_mod. destruct (Nat.eqb_spec i 0) as [->|Hi].
  - rewrite Nat.mod_0_l, Nat.div_0_l by lia. reflexivity.
  - pose proof (Nat.div_mod i N ltac:(lia)) as E. pose proof (Nat.mod_upper_bound i N ltac:(lia)) as Hm.
    destruct (Z.eqb_spec (Z.of_nat (i mod N)) 0) as [H0|H0].
    + destruct (i / N)%nat as [|q] eqn:Eq; [lia|].
      assert (Hq : ((i - 1) / N = q)%nat).
      { symmetry. apply (Nat.div_unique (i - 1) N _ (N - 1)); [lia|]. nia. }
      rewrite Hq. lia.
    + assert (Hq : ((i - 1) / N = i / N)%nat).
      { symmetry. apply (Nat.div_unique (i - 1) N _ (i mod N - 1)); [lia|]. remember (N * (i/N))%nat. lia. }
      rewrite Hq. reflexivity.
Qed.

Lemma py_get_shift (pv : list Z) i : (1 <= length pv)%nat ->
  py_get pv (Z.of_nat i - shift_at (length pv) i * Z.of_nat (length pv)) = Ok (nth (i mod length pv) pv 0).
Proof.
  intros HN. set (N := length pv) in *. unfold shift_at.
  destruct (Nat.eqb_spec i 0) as [->|Hi].
  - cbn [Z.of_nat Z.mul Z.sub Z.add Z.opp]. rewrite Nat.mod_0_l by lia. change 0 with (Z.of_nat 0). apply py_get_ok. lia.
  - pose proof (Nat.div_mod (i - 1) N ltac:(lia)) as E. pose proof (Nat.mod_upper_bound (i - 1) N ltac:(lia)) as Hm.
    set (q := ((i - 1) / N)%nat) in *. set (r := ((i - 1) mod N)%nat) in *.
    replace (Z.of_nat i - (Z.of_nat q + 1) * Z.of_nat N) with (Z.of_nat r + 1 - Z.of_nat N) by nia.
    destruct (Nat.eq_dec (r + 1) N) as [Er|Er].
    + replace (Z.of_nat r + 1 - Z.of_nat N) with (Z.of_nat 0) by lia.
      replace (i mod N)%nat with 0%nat; [apply py_get_ok; lia|].
      apply (Nat.mod_unique i N (q + 1)); [lia|]. nia.
    + replace (i mod N)%nat with (r + 1)%nat.
      2:{ apply (Nat.mod_unique i N q); [lia|]. nia. }
      unfold py_get, py_idx. fold N.
      replace ((0 <=? Z.of_nat r + 1 - Z.of_nat N) && (Z.of_nat r + 1 - Z.of_nat N <? Z.of_nat N)) with false by lia.
      replace ((- Z.of_nat N <=? Z.of_nat r + 1 - Z.of_nat N) && (Z.of_nat r + 1 - Z.of_nat N <? 0)) with true by lia.
      replace (Z.to_nat (Z.of_nat r + 1 - Z.of_nat N + Z.of_nat N)) with (r + 1)%nat by lia.
      rewrite (nth_error_nth' pv 0) by (fold N; lia). reflexivity.
Qed.

(* the kept positions among s, s+1, ..., s+n-1 *)
Definition kept_positions (pv : list Z) (s n : nat) : list nat := filter (kept pv) (seq s n).

Lemma punct_loop_spec {A} (d : A) pv : (1 <= length pv)%nat -> forall (m : list A) i,
  punct_loop pv (Z.of_nat i) (shift_at (length pv) i) m =
  Ok (map (fun j => nth (j - i) m d) (kept_positions pv i (length m))).
Proof.
  intros HN. induction m as [|x m IH]; intros i; [reflexivity|].
  cbn [punct_loop length]. rewrite py_get_shift by exact HN. cbn [bind].
  rewrite shift_at_S by exact HN. replace (Z.of_nat i + 1) with (Z.of_nat (S i)) by lia.
  rewrite IH. cbn [bind]. f_equal. unfold kept_positions. cbn [seq filter].
  change (nth (i mod length pv) pv 0 =? 1) with (kept pv i).
  assert (E : map (fun j => nth (j - S i) m d) (filter (kept pv) (seq (S i) (length m)))
            = map (fun j => nth (j - i) (x :: m) d) (filter (kept pv) (seq (S i) (length m)))).
  { apply map_ext_in. intros j Hj. apply filter_In in Hj. destruct Hj as [Hj _]. apply in_seq in Hj.
    replace (j - i)%nat with (S (j - S i)) by lia. reflexivity. }
  rewrite E. destruct (kept pv i); [|reflexivity].
  cbn [map]. rewrite Nat.sub_diag. reflexivity.
Qed.

Lemma puncturing_spec {A} (d : A) pv (m : list A) : (1 <= length pv)%nat ->
  puncturing m pv = Ok (map (fun j => nth j m d) (filter (kept pv) (seq 0 (length m)))).
Proof.
  intros HN. unfold puncturing. change 0 with (Z.of_nat 0) at 1. change 0 with (shift_at (length pv) 0).
  rewrite (punct_loop_spec d) by exact HN. f_equal. apply map_ext. intros j. rewrite Nat.sub_0_r. reflexivity.
Qed.

Lemma puncturing_empty_vec {A} (m : list A) : m <> [] -> puncturing m [] = Err IndexError.
Proof. destruct m; [contradiction|reflexivity]. Qed.

(* number of kept positions below i *)
Definition rank (pv : list Z) (i : nat) : nat := length (filter (kept pv) (seq 0 i)).

Lemma rank_S pv i : rank pv (S i) = (rank pv i + if kept pv i then 1 else 0)%nat.
Proof.
  unfold rank. replace (S i) with (i + 1)%nat by lia. rewrite seq_app, filter_app, app_length. cbn [seq filter Nat.add].
  destruct (kept pv i); reflexivity.
Qed.

Lemma rank_le pv i : (rank pv i <= i)%nat.
Proof. induction i; [reflexivity|]. rewrite rank_S. destruct (kept pv i); lia. Qed.

Lemma rank_mono pv i j : (i <= j)%nat -> (rank pv i <= rank pv j)%nat.
Proof. induction 1; [lia|]. rewrite rank_S. lia. Qed.

Lemma depunct_loop_spec {A} (zero : A) pv (p : list A) : (1 <= length pv)%nat -> forall n i,
  (rank pv i <= length p)%nat ->
  depunct_loop zero p pv (Z.of_nat i) (shift_at (length pv) i) (Z.of_nat i - Z.of_nat (rank pv i)) n =
  if (rank pv (i + n) <=? length p)%nat
  then Ok (map (fun j => if kept pv j then nth (rank pv j) p zero else zero) (seq i n))
  else Err IndexError.
Proof.
  intros HN. induction n as [|n IH]; intros i Hi.
  { cbn [depunct_loop seq map]. rewrite Nat.add_0_r. replace (rank pv i <=? length p)%nat with true by lia. reflexivity. }
  cbn [depunct_loop]. rewrite py_get_shift by exact HN. cbn [bind].
  rewrite shift_at_S by exact HN. replace (Z.of_nat i + 1) with (Z.of_nat (S i)) by lia.
  change (nth (i mod length pv) pv 0 =? 1) with (kept pv i).
  replace (Z.of_nat i - (Z.of_nat i - Z.of_nat (rank pv i))) with (Z.of_nat (rank pv i)) by lia.
  pose proof (rank_S pv i) as HS. pose proof (rank_le pv i) as Hle.
  replace (i + S n)%nat with (S i + n)%nat by lia.
  pose proof (rank_mono pv (S i) (S i + n) ltac:(lia)) as Hmono.
  destruct (kept pv i) eqn:Hk.
  - destruct (Nat.ltb_spec (rank pv i) (length p)) as [Hlt|Hge].
    + rewrite (py_get_ok p _ zero Hlt). cbn [bind].
      replace (Z.of_nat i - Z.of_nat (rank pv i)) with (Z.of_nat (S i) - Z.of_nat (rank pv (S i))) by lia.
      rewrite IH by lia. destruct (rank pv (S i + n) <=? length p)%nat; [|reflexivity].
      cbn [bind]. cbn [seq map]. rewrite Hk. reflexivity.
    + replace (rank pv (S i + n) <=? length p)%nat with false by lia.
      unfold py_get, py_idx.
      replace ((0 <=? Z.of_nat (rank pv i)) && (Z.of_nat (rank pv i) <? Z.of_nat (length p))) with false by lia.
      replace ((- Z.of_nat (length p) <=? Z.of_nat (rank pv i)) && (Z.of_nat (rank pv i) <? 0)) with false by lia.
      reflexivity.
  - cbn [bind]. replace (Z.of_nat i - Z.of_nat (rank pv i) + 1) with (Z.of_nat (S i) - Z.of_nat (rank pv (S i))) by lia.
    rewrite IH by lia. destruct (rank pv (S i + n) <=? length p)%nat; [|reflexivity].
    cbn [bind]. cbn [seq map]. rewrite Hk. reflexivity.
Qed.

Lemma depuncturing_spec {A} (zero : A) pv (p : list A) n : (1 <= length pv)%nat ->
  depuncturing zero p pv n =
  if (rank pv n <=? length p)%nat
  then Ok (map (fun j => if kept pv j then nth (rank pv j) p zero else zero) (seq 0 n))
  else Err IndexError.
Proof.
  intros HN. unfold depuncturing.
  pose proof (depunct_loop_spec zero pv p HN n 0 ltac:(cbn; lia)) as E.
  cbn [Nat.add] in E. rewrite <- E. reflexivity.
Qed.

(* j-th kept position has rank j *)
Lemma map_rank_kept pv n : map (rank pv) (filter (kept pv) (seq 0 n)) = seq 0 (rank pv n).
Proof.
  induction n as [|n IH]; [reflexivity|]. rewrite rank_S. replace (S n) with (n + 1)%nat by lia.
  rewrite seq_app, filter_app, map_app, IH. cbn [seq filter Nat.add].
  destruct (kept pv n); cbn [map]; [|rewrite app_nil_r, Nat.add_0_r; reflexivity].
  rewrite seq_app. reflexivity.
Qed.

Lemma puncture_depuncture {A} (zero : A) pv (p d : list A) n : (1 <= length pv)%nat ->
  length p = rank pv n -> depuncturing zero p pv n = Ok d -> puncturing d pv = Ok p.
Proof.
  intros HN Hl E. rewrite depuncturing_spec in E by exact HN. destruct (_ <=? _)%nat; [|discriminate]. inversion E; subst d.
  rewrite (puncturing_spec zero) by exact HN. f_equal. rewrite map_seq_length.
  assert (E1 : map (fun j => nth j (map (fun j0 => if kept pv j0 then nth (rank pv j0) p zero else zero) (seq 0 n)) zero)
                   (filter (kept pv) (seq 0 n))
             = map (fun r => nth r p zero) (map (rank pv) (filter (kept pv) (seq 0 n)))).
  { rewrite map_map. apply map_ext_in. intros j Hj. apply filter_In in Hj. destruct Hj as [Hj Hk]. apply in_seq in Hj.
    rewrite nth_map_seq by lia. rewrite Hk. reflexivity. }
  rewrite E1, map_rank_kept, <- Hl. clear. apply (nth_ext _ _ zero zero); [apply map_seq_length|].
  intros i Hi. rewrite map_seq_length in Hi. rewrite nth_map_seq by exact Hi. reflexivity.
Qed.

Lemma depuncture_puncture {A} (zero : A) pv (m p : list A) : (1 <= length pv)%nat -> puncturing m pv = Ok p ->
  length p = rank pv (length m) /\
  depuncturing zero p pv (length m) = Ok (map (fun j => if kept pv j then nth j m zero else zero) (seq 0 (length m))).
Proof.
  intros HN E. rewrite (puncturing_spec zero) in E by exact HN. inversion E; subst p.
  assert (Hl : (length (map (fun j => nth j m zero) (filter (kept pv) (seq 0 (length m)))) = rank pv (length m))%nat) by (rewrite map_length; reflexivity).
  split; [exact Hl|]. rewrite depuncturing_spec by exact HN. rewrite Hl, Nat.leb_refl. f_equal.
  apply map_ext_in. intros j Hj. apply in_seq in Hj. destruct (kept pv j) eqn:Hk; [|reflexivity].
  set (fl := filter (kept pv) (seq 0 (length m))).
  assert (Hjin : In j fl) by (apply filter_In; split; [apply in_seq; lia|exact Hk]).
  destruct (In_nth fl j 0%nat Hjin) as (q & Hq & Eq).
  assert (Hr : rank pv j = q).
  { pose proof (map_rank_kept pv (length m)) as M. fold fl in M. apply (f_equal (fun l => nth q l 0%nat)) in M.
    rewrite (nth_map_lt _ fl q 0%nat) in M by exact Hq. rewrite Eq in M. rewrite M. apply seq_nth. exact Hq. }
  rewrite Hr. rewrite (nth_map_lt _ fl q 0%nat) by exact Hq. rewrite Eq. reflexivity.
Qed.
