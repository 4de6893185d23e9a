(* Proofs about best_first_detector. *)
From Coq Require Import Permutation Sorted.
From Verif Require Import Base UtilModel UtilProofs Cplx ModemModel ModemProofs MimoModel MimoSpec MimoProofs KbestProofs.
Open Scope Z_scope.

Definition mle (a b : list C * R) : Prop := (snd a <= snd b)%R.
Definition nle (a b : node) : Prop := (metric_of a <= metric_of b)%R.
Definition stk (st : bf_state) (i : nat) : list node := nth i (stacks st) [].

Section BF.
  Variables (argsort : list R -> list nat) (yt : list C) (r : list (list C)) (c : list C) (demode : list C -> res (list Z)) (order : nat) (lab : C -> list Z)
            (stack_size : list nat) (L : R) (N : nat).
  Hypothesis (HS : sorting argsort).
  Let m := length c.

  (* error term of one row, and the partial metric of a vector of decided symbols *)
  Definition errt (v : list C) : R :=
    let row := nth (length r - length v) r [] in
    Cnorm2 (nth (length yt - length v) yt C0 - dotC (skipn (length row - length v) row) v)%C.
  Fixpoint pm (v : list C) : R := match v with [] => 0%R | s :: v' => (errt v + pm v')%R end.
  Lemma errt_nonneg : forall v, (0 <= errt v)%R. Proof. intros. apply Cnorm2_nonneg. Qed.
  Lemma pm_app : forall p v, (pm v <= pm (p ++ v))%R.
  Proof. induction p as [|s p IH]; intros v; cbn [app pm]; [lra|]. pose proof (errt_nonneg (s :: p ++ v)). specialize (IH v). lra. Qed.

  (* a chain of siblings below the vector p: its entries are children of p (or, for chains that have been cut, some of them) *)
  Definition chain (len : nat) (nd : node) : Prop :=
    nd <> [] /\ StronglySorted mle nd /\ Forall (fun e => length (fst e) = len /\ Forall (fun s => In s c) (fst e) /\ snd e = pm (fst e)) nd.
  Lemma chain_tl : forall len nd, chain len nd -> tl nd <> [] -> chain len (tl nd).
  Proof. intros len [|e nd] (H1 & H2 & H3) Ht; [congruence|]. cbn [tl] in *. inversion H2. inversion H3. subst. repeat split; assumption. Qed.
  Lemma chain_head : forall len nd, chain len nd -> length (symbols_of nd) = len /\ Forall (fun s => In s c) (symbols_of nd) /\ metric_of nd = pm (symbols_of nd) /\ nd = (symbols_of nd, metric_of nd) :: tl nd.
  Proof. intros len [|e nd] (H1 & H2 & H3); [congruence|]. inversion H3 as [|? ? He _]. subst. unfold symbols_of, metric_of. cbn [nth tl]. destruct e as [v x]. cbn [fst snd] in *. intuition. Qed.
  Lemma chain_min : forall len nd e, chain len nd -> In e nd -> (metric_of nd <= pm (fst e))%R.
  Proof.
    intros len [|e0 nd] e (H1 & H2 & H3) He; [congruence|]. unfold metric_of. cbn [nth]. rewrite Forall_forall in H3. destruct (H3 e He) as (_ & _ & E). rewrite <- E. destruct He as [<-|He]; [apply Rle_refl|]. inversion H2 as [|? ? _ HF]. subst. rewrite Forall_forall in HF. apply HF, He.
  Qed.

  Lemma expand_ok : forall v, Forall (fun s => In s c) v -> c <> [] -> (S (length v) <= length yt)%nat ->
    exists nd, expand argsort yt r c v (pm v) = Ok nd /\ chain (S (length v)) nd /\ length nd = m /\ forall s, In s c -> In (s :: v, pm (s :: v)) nd.
  Proof.
    intros v Hv Hc Hl. unfold expand. destruct (Nat.ltb_spec (length yt) (S (length v))); [lia|]. cbv zeta. set (f := fun s : C => _). set (kids := map f c). assert (EF : forall s, f s = (s :: v, pm (s :: v))) by (intros s; unfold f; cbn [pm]; rewrite Cabs_sqr; reflexivity).
    destruct (HS (map snd kids)) as (HP & HSo). set (o := argsort (map snd kids)) in *. assert (LK : length (map snd kids) = m) by (unfold kids; rewrite !map_length; reflexivity). rewrite LK in HP. eexists. split; [reflexivity|]. set (nd := map _ o).
    assert (PN : Permutation nd kids). { unfold nd. etransitivity; [apply Permutation_map, HP|]. replace m with (length kids) by (unfold kids; apply map_length). rewrite map_nth_seq_id. reflexivity. }
    assert (LN : length nd = m) by (rewrite (Permutation_length PN); unfold kids; apply map_length).
    split; [|split; [exact LN|]].
    - split; [|split].
      + intros E. rewrite E in LN. destruct c; [congruence|discriminate].
      + unfold nd. assert (SG : forall o, StronglySorted Rle (map (fun i => nth i (map snd kids) 0%R) o) -> StronglySorted mle (map (fun i => nth i kids ([], 0%R)) o)).
        { clear. induction o as [|i o IH]; intros H; [constructor|]. cbn [map] in *. inversion H as [|? ? H1 H2]. subst. constructor; [apply IH, H1|]. rewrite Forall_map in *. rewrite Forall_forall in *. intros j Hj. unfold mle. rewrite <- !(map_nth snd). cbn [snd]. apply H2, Hj. }
        apply SG, HSo.
      + apply Forall_forall. intros e He. apply (Permutation_in _ PN) in He. apply in_map_iff in He as (s & <- & Hs). rewrite EF. cbn [fst snd]. split; [reflexivity|]. split; [constructor; assumption|reflexivity].
    - intros s Hs. apply (Permutation_in _ (Permutation_sym PN)). rewrite <- EF. apply in_map, Hs.
  Qed.
  Lemma expand_len : forall v mu nd, expand argsort yt r c v mu = Ok nd -> length nd = m.
  Proof.
    intros v mu nd. unfold expand. destruct (length yt <? S (length v))%nat; [discriminate|]. intros E. injection E as <-. rewrite map_length. match goal with |- length (argsort ?l) = _ => destruct (HS l) as (HP & _) end. rewrite (Permutation_length HP), seq_length, !map_length. reflexivity.
  Qed.
  Lemma expand_err : forall v mu e, expand argsort yt r c v mu = Err e -> e = IndexError.
  Proof. intros v mu e. unfold expand. destruct (length yt <? S (length v))%nat; [|discriminate]. congruence. Qed.

  (* ---------------------------------------------------------------- insort *)
  Lemma insort_in : forall l nd x, In x (insort l nd) <-> x = nd \/ In x l.
  Proof. induction l as [|a l IH]; intros nd x; cbn [insort In]; [intuition|]. destruct (Rlt_dec _ _); cbn [In]; [intuition|]. rewrite IH. intuition. Qed.
  Lemma insort_sorted : forall l nd, StronglySorted nle l -> StronglySorted nle (insort l nd).
  Proof.
    induction l as [|a l IH]; intros nd H; cbn [insort]; [repeat constructor|]. inversion H as [|? ? H1 H2]. subst. destruct (Rlt_dec (metric_of nd) (metric_of a)) as [Hl|Hl].
    - constructor; [exact H|]. constructor; [unfold nle; lra|]. rewrite Forall_forall in *. intros x Hx. specialize (H2 x Hx). unfold nle in *. lra.
    - constructor; [apply IH, H1|]. rewrite Forall_forall in *. intros x Hx. apply insort_in in Hx as [->|Hx]; [unfold nle; lra|apply H2, Hx].
  Qed.

  (* ---------------------------------------------------------------- termination measure *)
  Fixpoint cost (i : nat) : nat := match i with O => 0%nat | S j => S (m * cost j) end.
  Definition weight (i : nat) (s : list node) : nat := fold_right Nat.add 0%nat (map (fun nd : node => (length nd * cost i)%nat) s).
  Fixpoint total (i : nat) (ss : list (list node)) : nat := match ss with [] => 0%nat | s :: ss' => (weight i s + total (S i) ss')%nat end.
  Definition meas (st : bf_state) : nat := total 0 (stacks st).
  Lemma weight_insort : forall i l nd, weight i (insort l nd) = (length nd * cost i + weight i l)%nat.
  Proof. intros i l nd. unfold weight. induction l as [|a l IH]; cbn [insort map fold_right]; [reflexivity|]. destruct (Rlt_dec _ _); cbn [map fold_right]; [reflexivity|]. rewrite IH. lia. Qed.
  Lemma total_upd : forall ss i j s, (j < length ss)%nat -> (total i (upd ss j s) + weight (i + j) (nth j ss []) = total i ss + weight (i + j) s)%nat.
  Proof.
    induction ss as [|s0 ss IH]; intros i j s Hj; [cbn in Hj; lia|]. destruct j as [|j]; cbn [upd total nth].
    - rewrite Nat.add_0_r. lia.
    - specialize (IH (S i) j s ltac:(cbn in Hj; lia)). replace (S i + j)%nat with (i + S j)%nat in IH by lia. lia.
  Qed.

  (* the parts of a step: the stacks after it *)
  Definition with_stacks (st : bf_state) (ss : list (list node)) : bf_state := {| map_metric := map_metric st; map_bits := map_bits st; counter := counter st; stacks := ss |}.
  Definition after_pop (st : bf_state) (j : nat) (best : node) (rest : list node) (rad : option R) (child : option node) : list (list node) :=
    let s1 := match tl best with [] => rest | sib => if le_inf (metric_of sib) rad then insort rest sib else rest end in
    let ss := upd (stacks st) (S j) s1 in
    match child with Some ch => if le_inf (metric_of ch) rad then upd ss j (insort (nth j (stacks st) []) ch) else ss | None => ss end.
  Lemma upd_upd : forall {A} (l : list A) i a b, upd (upd l i a) i b = upd l i b.
  Proof. intros A l. induction l as [|x l IH]; intros [|i] a b; cbn [upd]; try reflexivity. rewrite IH. reflexivity. Qed.
  Lemma bf_node_eq : forall st j, (S j < length (stacks st))%nat -> bf_node argsort yt r c demode order st j =
    match stk st (S j) with
    | [] => Ok st
    | best :: rest => match radius demode order st (S j) (symbols_of best) with
        | Err IndexError => Ok (with_stacks st (upd (stacks st) (S j) rest))
        | Err e => Err e
        | Ok rad => match expand argsort yt r c (symbols_of best) (metric_of best) with
             | Err IndexError => Ok (with_stacks st (after_pop st j best rest rad None))
             | Err e => Err e
             | Ok child => Ok (with_stacks st (after_pop st j best rest rad (Some child))) end end end.
  Proof.
    intros st j Hj. unfold bf_node, stk. destruct (nth (S j) (stacks st) []) as [|best rest]; [reflexivity|]. destruct (radius _ _ _ _ _) as [rad|e]; [|reflexivity]. cbn [stacks]. rewrite nth_upd_eq by exact Hj.
    assert (E2 : forall s, nth j (upd (stacks st) (S j) s) [] = nth j (stacks st) []) by (intros s; apply nth_upd_neq; lia).
    destruct (expand _ _ _ _ _ _) as [child|[]]; try reflexivity; unfold after_pop, with_stacks; destruct (tl best) as [|e0 sib]; cbn [stacks map_metric map_bits counter]; try reflexivity.
    - destruct (le_inf (metric_of child) rad); cbn [stacks map_metric map_bits counter]; rewrite ?E2; reflexivity.
    - destruct (le_inf (metric_of (e0 :: sib)) rad); destruct (le_inf (metric_of child) rad); cbn [stacks map_metric map_bits counter]; rewrite ?upd_upd, ?E2; reflexivity.
    - destruct (le_inf (metric_of (e0 :: sib)) rad); cbn [stacks map_metric map_bits counter]; rewrite ?upd_upd; reflexivity.
  Qed.

  (* ---------------------------------------------------------------- bits *)
  Hypothesis (HD : demaps demode c order lab) (Ho : (1 <= order)%nat) (Hc : c <> []) (HL : (0 <= L)%R).
  Definition pmone (b : Z) : Z := if b =? 0 then -1 else b.
  Definition rows (v : list C) : list (list Z) := map (fun s => map pmone (lab s)) v.
  Lemma bit_rows_ok : forall v, Forall (fun s => In s c) v -> bit_rows demode order v = Ok (rows v).
  Proof.
    intros v Hv. destruct HD as (D1 & D2). unfold bit_rows. rewrite D2 by exact Hv. cbn [bind]. assert (HLn : forall s, In s c -> length (lab s) = order) by (intros s Hs; apply D1, Hs). rewrite (flat_lab_length lab c order v HLn Hv). rewrite Nat.mod_mul, Nat.div_mul by lia. destruct (Nat.eqb_spec order 0); [lia|]. cbn [Nat.eqb negb orb]. f_equal.
    unfold rows. apply (nth_ext _ _ [] []); [rewrite !map_length; apply seq_length|]. intros k Hk. rewrite map_length, seq_length in Hk. rewrite nth_map_seq by exact Hk. rewrite (nth_map_lt _ _ _ C0 []) by exact Hk. f_equal.
    clear D1 D2. revert k Hk. induction Hv as [|s v Hs Hv IH]; intros k Hk; [cbn in Hk; lia|]. cbn [flat_map]. unfold slice in *. destruct k as [|k].
    - cbn [Nat.mul Nat.add skipn nth]. rewrite Nat.sub_0_r, firstn_app, (HLn s Hs), Nat.sub_diag, firstn_all2 by (rewrite (HLn s Hs); lia). cbn [firstn]. apply app_nil_r.
    - cbn [nth]. rewrite <- (IH k) by (cbn in Hk; lia). replace (S k * order)%nat with (order + k * order)%nat by lia. rewrite skipn_app, (HLn s Hs), skipn_all2 by (rewrite (HLn s Hs); lia). cbn [app]. replace (order + k * order - order)%nat with (k * order)%nat by lia. f_equal. lia.
  Qed.
  Lemma rows_shape : forall v, length (rows v) = length v. Proof. intros. apply map_length. Qed.

  Definition binv (st : bf_state) (kap : option R) : Prop :=
    counter st = repeat (repeat kap order) N /\
    match map_metric st, map_bits st with
    | None, None => kap = None
    | Some v, Some mb => exists x k, vector_of c N x /\ v = pm x /\ mb = rows x /\ kap = Some k /\ (pm x <= k <= pm x + L)%R
    | _, _ => False
    end.
  Definition sinv (st : bf_state) : Prop := length (stacks st) = N /\ forall i, (i < N)%nat -> StronglySorted nle (stk st i) /\ Forall (chain (N - i)) (stk st i).

  Lemma np_max_const : forall l kap, l <> [] -> Forall (eq kap) l -> np_max l = Ok kap.
  Proof.
    intros [|x l] kap Hne H; [congruence|]. inversion H as [|? ? Hx Hl]. subst. cbn [np_max]. f_equal. clear Hne H. induction Hl as [|y l Hy _ IH]; [reflexivity|]. subst y. cbn [fold_left]. replace (max_opt x x) with x; [exact IH|]. destruct x as [u|]; [|reflexivity]. cbn [max_opt]. f_equal. unfold Rmax. destruct (Rle_dec u u); reflexivity.
  Qed.
  Lemma concat_const : forall (kap : option R) n, Forall (eq kap) (concat (repeat (repeat kap order) n)).
  Proof. intros kap n. apply Forall_forall. intros x Hx. apply in_concat in Hx as (l & Hl & Hx). apply repeat_spec in Hl. subst l. apply repeat_spec in Hx. auto. Qed.
  Lemma firstn_repeat : forall {A} (x : A) n k, (k <= n)%nat -> firstn k (repeat x n) = repeat x k.
  Proof. intros A x n. induction n as [|n IH]; intros [|k] H; try reflexivity; try lia. cbn [repeat firstn]. rewrite IH by lia. reflexivity. Qed.
  Lemma skipn_repeat : forall {A} (x : A) n k, skipn k (repeat x n) = repeat x (n - k).
  Proof. intros A x n. induction n as [|n IH]; intros [|k]; try reflexivity. cbn [repeat skipn]. apply IH. Qed.
  Lemma radius_ok : forall st kap idx v, binv st kap -> (1 <= idx < N)%nat -> length v = (N - idx)%nat -> Forall (fun s => In s c) v ->
    exists rad, radius demode order st idx v = Ok rad /\ (rad = None \/ (rad = kap /\ map_metric st <> None)).
  Proof.
    intros st kap idx v (B1 & B2) Hi Hl Hv. unfold radius. destruct (map_bits st) as [mb|]; [|exists None; auto]. destruct (map_metric st) as [mv|] eqn:Em; [|destruct B2]. destruct B2 as (x & k & (X1 & X2) & _ & -> & Ek & _). rewrite bit_rows_ok by exact Hv. cbn [bind]. rewrite B1, skipn_repeat, firstn_repeat by lia.
    assert (EL : length (skipn idx (rows x)) = (N - idx)%nat) by (unfold rows; rewrite skipn_map, map_length, skipn_length, X1; reflexivity).
    cbv zeta. rewrite EL, repeat_length, rows_shape, Hl, !Nat.eqb_refl. cbn [andb negb]. cbv iota.
    rewrite (np_max_const (concat (repeat (repeat kap order) idx)) kap); [|intros E; apply (f_equal (@length _)) in E; rewrite (concat_length_uniform order), repeat_length in E by (intros z Hz; apply repeat_spec in Hz; subst z; apply repeat_length); cbn [length] in E; nia|apply concat_const].
    cbn [bind]. eexists. split; [reflexivity|]. match goal with |- context [np_max ?q] => set (ch := q) end. destruct ch as [|z l] eqn:Ez.
    - left. cbn [np_max]. destruct kap; reflexivity.
    - right. split; [|discriminate]. rewrite (np_max_const (z :: l) kap); [|discriminate|].
      + subst kap. cbn [max_opt]. f_equal. unfold Rmax. destruct (Rle_dec k k); reflexivity.
      + rewrite <- Ez. apply Forall_forall. intros u Hu. unfold ch in Hu. apply in_map_iff in Hu as (w & <- & Hw). apply filter_In in Hw as (Hw & _). destruct w as [ab w']. apply in_combine_r in Hw. cbn [snd]. pose proof (concat_const kap (N - idx)) as F. rewrite Forall_forall in F. apply F, Hw.
  Qed.

  (* ---------------------------------------------------------------- one step *)
  Definition held (ss : list (list node)) (x : list C) : Prop := exists i nd e p, (i < N)%nat /\ In nd (nth i ss []) /\ In e nd /\ x = p ++ fst e.
  Definition beaten (mm : option R) (x : list C) : Prop := exists v, mm = Some v /\ (v <= pm x)%R.
  Definition out (kap : option R) (x : list C) : Prop := exists k, kap = Some k /\ (k <= pm x)%R.
  Lemma out_beaten : forall st kap x, binv st kap -> out kap x -> beaten (map_metric st) x.
  Proof. intros st kap x (_ & B2) (k & -> & Hk). unfold beaten. destruct (map_metric st) as [v|]; destruct (map_bits st) as [mb|]; try (destruct B2; fail); [|discriminate]. destruct B2 as (x0 & k' & _ & -> & _ & Ek & Hk'). injection Ek as <-. exists (pm x0). split; [reflexivity|lra]. Qed.
  Lemma le_inf_false : forall x rad, le_inf x rad = false -> exists k, rad = Some k /\ (k < x)%R.
  Proof. intros x [k|] H; cbn [le_inf] in H; [|discriminate]. destruct (Rle_dec x k); [discriminate|]. exists k. split; [reflexivity|lra]. Qed.

  Lemma stk_with : forall st ss i, stk (with_stacks st ss) i = nth i ss []. Proof. reflexivity. Qed.

  Lemma step_ok : forall st kap j, binv st kap -> sinv st -> (S j < N)%nat -> exists ss,
    bf_node argsort yt r c demode order st j = Ok (with_stacks st ss) /\ sinv (with_stacks st ss) /\
    (forall i, i <> j -> i <> S j -> nth i ss [] = stk st i) /\
    ((ss = stacks st /\ stk st (S j) = []) \/ (total 0 ss < meas st)%nat) /\
    ((N <= length yt)%nat -> forall x, vector_of c N x -> held (stacks st) x -> held ss x \/ out kap x) /\
    ((N <= length yt)%nat -> map_metric st = None -> stk st (S j) <> [] -> nth j ss [] <> []) /\
    ((length yt < N - j)%nat -> nth j ss [] = stk st j) /\ (stk st (S j) = [] -> ss = stacks st).
  Proof.
    intros st kap j HB HI Hj. destruct HI as (I1 & I2). rewrite bf_node_eq by lia. destruct (stk st (S j)) as [|best rest] eqn:Es.
    { exists (stacks st). assert (E : with_stacks st (stacks st) = st) by (destruct st; reflexivity). rewrite E. split; [reflexivity|]. split; [split; assumption|]. split; [reflexivity|]. split; [left; auto|]. split; [intros _ x _ Hx; left; exact Hx|]. split; [intros _ _ F; congruence|]. split; reflexivity. }
    destruct (I2 (S j) ltac:(lia)) as (S1 & S2). rewrite Es in S1, S2. inversion S1 as [|? ? S1r S1b]. inversion S2 as [|? ? Cb S2r]. subst.
    destruct (chain_head _ _ Cb) as (C1 & C2 & C3 & C4). destruct (radius_ok st kap (S j) (symbols_of best) HB ltac:(lia) C1 C2) as (rad & Er & Hrad). rewrite Er.
    set (s1 := match tl best with [] => rest | sib => if le_inf (metric_of sib) rad then insort rest sib else rest end).
    assert (A1 : StronglySorted nle s1 /\ Forall (chain (N - S j)) s1 /\ (forall x, In x rest -> In x s1)).
    { unfold s1. destruct (tl best) as [|e0 sib] eqn:Et; [auto|]. destruct (le_inf _ rad); [|auto]. assert (CT : chain (N - S j) (e0 :: sib)) by (rewrite <- Et; apply chain_tl; [exact Cb|rewrite Et; discriminate]). split; [apply insort_sorted, S1r|]. split; [|intros x Hx; apply insort_in; right; exact Hx].
      apply Forall_forall. intros x Hx. apply insort_in in Hx as [->|Hx]; [exact CT|]. rewrite Forall_forall in S2r. apply S2r, Hx. }
    assert (W1 : (weight (S j) s1 + cost (S j) <= weight (S j) (best :: rest))%nat).
    { assert (Eb : length best = S (length (tl best))) by (rewrite C4 at 1; reflexivity). unfold weight at 2. cbn [map fold_right]. fold (weight (S j) rest). rewrite Eb. unfold s1. destruct (tl best) as [|e0 sib]; [cbn [length]; lia|]. destruct (le_inf _ rad); [rewrite weight_insort|]; cbn [length]; lia. }
    (* who is covered by the popped chain *)
    assert (BEAT : forall mu x, (exists k, rad = Some k /\ (k < mu)%R) -> (mu <= pm x)%R -> out kap x).
    { intros mu x (k & -> & Hk) Hx. destruct Hrad as [Hr|(Hr & Hm)]; [discriminate|]. exists k. split; [symmetry; exact Hr|lra]. }
    assert (U : forall ss i s, (i < length (ss : list (list node)))%nat -> forall a, nth a (upd ss i s) [] = if (a =? i)%nat then s else nth a ss []).
    { intros ss i s Hi a. destruct (Nat.eqb_spec a i) as [->|Ha]; [apply nth_upd_eq, Hi|apply nth_upd_neq, Ha]. }
    assert (COV : forall ss, (forall a, nth a ss [] = if (a =? S j)%nat then s1 else stk st a) -> forall x, held (stacks st) x -> (held ss x \/ out kap x) \/ exists p, x = p ++ symbols_of best).
    { intros ss Hss x (i & nd & e & p & P1 & P2 & P3 & ->). destruct (Nat.eq_dec i (S j)) as [->|Hi].
      - fold (stk st (S j)) in P2. rewrite Es in P2. destruct P2 as [<-|P2].
        + rewrite C4 in P3. destruct P3 as [<-|P3]; [right; exists p; reflexivity|]. left. unfold s1 in Hss. destruct (tl best) as [|e0 sib] eqn:Et; [destruct P3|]. destruct (le_inf (metric_of (e0 :: sib)) rad) eqn:El.
          * left. exists (S j), (e0 :: sib), e, p. split; [lia|]. split; [rewrite Hss, Nat.eqb_refl; apply insort_in; left; reflexivity|]. split; [exact P3|reflexivity].
          * right. apply (BEAT (metric_of (e0 :: sib))); [apply le_inf_false, El|]. assert (CT : chain (N - S j) (e0 :: sib)) by (rewrite <- Et; apply chain_tl; [exact Cb|rewrite Et; discriminate]). eapply Rle_trans; [apply (chain_min _ _ _ CT P3)|apply pm_app].
        + left. left. exists (S j), nd, e, p. split; [lia|]. split; [rewrite Hss, Nat.eqb_refl; apply A1, P2|]. split; [exact P3|reflexivity].
      - left. left. exists i, nd, e, p. split; [exact P1|]. split; [rewrite Hss; destruct (Nat.eqb_spec i (S j)); [lia|exact P2]|]. split; [exact P3|reflexivity]. }
    set (ss1 := upd (stacks st) (S j) s1). assert (SS1 : forall a, nth a ss1 [] = if (a =? S j)%nat then s1 else stk st a) by (intros a; apply U; lia). assert (LS1 : length ss1 = N) by (unfold ss1; rewrite upd_length; exact I1).
    assert (SI1 : sinv (with_stacks st ss1)).
    { split; [exact LS1|]. intros i Hi. rewrite stk_with, SS1. destruct (Nat.eqb_spec i (S j)) as [->|_]; [split; apply A1|apply I2, Hi]. }
    assert (T1 : (total 0 ss1 + cost (S j) <= meas st)%nat). { pose proof (total_upd (stacks st) 0 (S j) s1 ltac:(lia)) as T. fold ss1 in T. cbn [Nat.add] in T. fold (stk st (S j)) in T. rewrite Es in T. unfold meas. lia. }
    rewrite C3. destruct (Nat.le_gt_cases (S (length (symbols_of best))) (length yt)) as [Hyt|Hyt].
    - destruct (expand_ok (symbols_of best) C2 Hc Hyt) as (ch & Ech & Cch & Lch & Ich). rewrite Ech. rewrite C1 in Cch. replace (S (N - S j)) with (N - j)%nat in Cch by lia. unfold after_pop. fold s1 ss1. destruct (le_inf (metric_of ch) rad) eqn:El.
      + set (ss2 := upd ss1 j (insort (nth j (stacks st) []) ch)). exists ss2. assert (SS2 : forall a, nth a ss2 [] = if (a =? j)%nat then insort (stk st j) ch else nth a ss1 []) by (intros a; apply U; lia). split; [reflexivity|]. split.
        { split; [unfold ss2; cbn [with_stacks stacks]; rewrite upd_length; exact LS1|]. intros i Hi. rewrite stk_with, SS2. destruct (Nat.eqb_spec i j) as [->|_]; [|apply SI1, Hi]. destruct (I2 j ltac:(lia)) as (J1 & J2). split; [apply insort_sorted, J1|]. apply Forall_forall. intros z Hz. apply insort_in in Hz as [->|Hz]; [exact Cch|]. rewrite Forall_forall in J2. apply J2, Hz. }
        split; [intros i H1 H2; rewrite SS2, SS1; destruct (Nat.eqb_spec i j); [lia|]; destruct (Nat.eqb_spec i (S j)); [lia|reflexivity]|]. split.
        { right. pose proof (total_upd ss1 0 j (insort (nth j (stacks st) []) ch) ltac:(lia)) as T. fold ss2 in T. cbn [Nat.add] in T. rewrite SS1 in T. destruct (Nat.eqb_spec j (S j)); [lia|]. unfold stk in T. rewrite weight_insort, Lch in T. cbn [cost] in T1. lia. }
        split.
        { intros _ x (Hx1 & Hx2) Hh. destruct (COV ss1 SS1 x Hh) as [[(i & nd & e & p & P1 & P2 & P3 & ->)|B]|(p & ->)]; [|right; exact B|].
          - left. destruct (Nat.eq_dec i j) as [->|Hij].
            + exists j, nd, e, p. split; [lia|]. split; [rewrite SS2, Nat.eqb_refl; apply insort_in; right; rewrite SS1 in P2; destruct (Nat.eqb_spec j (S j)); [lia|exact P2]|]. split; [exact P3|reflexivity].
            + exists i, nd, e, p. split; [exact P1|]. split; [rewrite SS2; destruct (Nat.eqb_spec i j); [lia|exact P2]|]. split; [exact P3|reflexivity].
          - left. rewrite app_length, C1 in Hx1. destruct (exists_last (l := p)) as (p' & s & ->); [intros E; rewrite E in Hx1; cbn in Hx1; lia|]. exists j, ch, (s :: symbols_of best, pm (s :: symbols_of best)), p'. split; [lia|]. split; [rewrite SS2, Nat.eqb_refl; apply insort_in; left; reflexivity|]. split; [apply Ich; rewrite Forall_forall in Hx2; apply Hx2; apply in_or_app; left; apply in_or_app; right; left; reflexivity|]. cbn [fst]. rewrite <- app_assoc. reflexivity. }
        split; [|split; [intros Hlt; rewrite C1 in Hyt; lia|discriminate]]. intros _ _ _ E. rewrite SS2, Nat.eqb_refl in E. assert (I : In ch (insort (stk st j) ch)) by (apply insort_in; left; reflexivity). rewrite E in I. exact I.
      + exists ss1. split; [reflexivity|]. split; [exact SI1|]. split; [intros i H1 H2; rewrite SS1; destruct (Nat.eqb_spec i (S j)); [lia|reflexivity]|]. split; [right; cbn [cost] in T1; lia|]. split.
        { intros _ x (Hx1 & Hx2) Hh. destruct (COV ss1 SS1 x Hh) as [C|(p & ->)]; [exact C|]. right. apply (BEAT (metric_of ch)); [apply le_inf_false, El|]. rewrite app_length, C1 in Hx1. destruct (exists_last (l := p)) as (p' & s & ->); [intros E; rewrite E in Hx1; cbn in Hx1; lia|].
          assert (Is : In s c) by (rewrite Forall_forall in Hx2; apply Hx2; apply in_or_app; left; apply in_or_app; right; left; reflexivity). eapply Rle_trans; [apply (chain_min _ _ _ Cch (Ich s Is))|]. cbn [fst]. rewrite <- app_assoc. apply pm_app. }
        split; [|split; [intros Hlt; rewrite C1 in Hyt; lia|discriminate]]. intros _ Hm _. exfalso. destruct (le_inf_false _ _ El) as (k & Ek & _). destruct Hrad as [Hr|(_ & Hr)]; congruence.
    - assert (EE : expand argsort yt r c (symbols_of best) (pm (symbols_of best)) = Err IndexError) by (unfold expand; destruct (Nat.ltb_spec (length yt) (S (length (symbols_of best)))); [reflexivity|lia]). rewrite EE. unfold after_pop. fold s1 ss1. exists ss1. split; [reflexivity|]. split; [exact SI1|]. split; [intros i H1 H2; rewrite SS1; destruct (Nat.eqb_spec i (S j)); [lia|reflexivity]|]. split; [right; cbn [cost] in T1; lia|].
      split; [intros Hn; rewrite C1 in Hyt; lia|]. split; [intros Hn; rewrite C1 in Hyt; lia|]. split; [|discriminate]. intros _. rewrite SS1. destruct (Nat.eqb_spec j (S j)); [lia|reflexivity].
  Qed.

  Lemma with_with : forall st a b, with_stacks (with_stacks st a) b = with_stacks st b. Proof. reflexivity. Qed.
  Lemma with_id : forall st, with_stacks st (stacks st) = st. Proof. intros []. reflexivity. Qed.
  Lemma binv_with : forall st ss kap, binv st kap -> binv (with_stacks st ss) kap. Proof. intros st ss kap H. exact H. Qed.
  Lemma fold_ok : forall k a st kap, binv st kap -> sinv st -> (a + k < N)%nat -> exists ss,
    foldM (bf_node argsort yt r c demode order) (seq a k) st = Ok (with_stacks st ss) /\ sinv (with_stacks st ss) /\
    (forall i, (i < a \/ a + k < i)%nat -> nth i ss [] = stk st i) /\
    ((ss = stacks st /\ forall i, (a < i <= a + k)%nat -> stk st i = []) \/ (total 0 ss < meas st)%nat) /\
    ((N <= length yt)%nat -> forall x, vector_of c N x -> held (stacks st) x -> held ss x \/ out kap x) /\
    ((N <= length yt)%nat -> map_metric st = None -> forall i, (a < i <= a + k)%nat -> stk st i <> [] -> nth (i - 1) ss [] <> []) /\
    ((forall i, (length yt < N - i)%nat -> stk st i = []) -> forall i, (length yt < N - i)%nat -> nth i ss [] = []).
  Proof.
    induction k as [|k IH]; intros a st kap HB HI Hk.
    - exists (stacks st). rewrite with_id. cbn [seq foldM]. split; [reflexivity|]. split; [exact HI|]. split; [reflexivity|]. split; [left; split; [reflexivity|intros; lia]|]. split; [auto|]. split; [intros; lia|auto].
    - destruct (step_ok st kap a HB HI ltac:(lia)) as (ss1 & E1 & I1 & U1 & T1 & V1 & P1 & Q1 & R1). destruct (IH (S a) (with_stacks st ss1) kap (binv_with _ _ _ HB) I1 ltac:(lia)) as (ss & E & I & U & T & V & P & Q).
      exists ss. cbn [seq foldM]. rewrite E1. cbn [bind]. rewrite E, with_with. split; [reflexivity|]. split; [exact I|]. split; [intros i Hi; rewrite U by lia; rewrite stk_with; apply U1; lia|]. split; [|split; [|split]].
      + unfold meas in T. cbn [with_stacks stacks] in T. destruct T1 as [(-> & Z1)|T1]; destruct T as [(-> & Z)|T].
        * left. split; [reflexivity|]. intros i Hi. destruct (Nat.eq_dec i (S a)) as [->|Hne]; [exact Z1|]. apply (Z i). lia.
        * right. exact T.
        * right. exact T1.
        * right. lia.
      + intros Hn x Hx Hh. destruct (V1 Hn x Hx Hh) as [Hh1|B]; [|right; exact B]. exact (V Hn x Hx Hh1).
      + intros Hn Hm i Hi Hne. destruct (Nat.eq_dec i (S a)) as [->|Hia].
        * replace (S a - 1)%nat with a by lia. rewrite U by lia. rewrite stk_with. apply P1; assumption.
        * apply P; [exact Hn|exact Hm|lia|]. rewrite stk_with, U1 by lia. exact Hne.
      + intros Z. apply Q. intros i Hi. rewrite stk_with. destruct (Nat.eq_dec i a) as [->|Hia]; [rewrite Q1 by exact Hi; apply Z, Hi|]. destruct (Nat.eq_dec i (S a)) as [->|Hib]; [rewrite (R1 (Z _ Hi)); apply Z, Hi|]. rewrite U1 by assumption. apply Z, Hi.
  Qed.

  Lemma map_map_repeat : forall (f : option R -> option R) kap n, map (map f) (repeat (repeat kap order) n) = repeat (repeat (f kap) order) n.
  Proof.
    intros f kap n. assert (E : map f (repeat kap order) = repeat (f kap) order) by (clear; induction order as [|o IH]; [reflexivity|]; cbn [repeat map]; rewrite IH; reflexivity). induction n as [|n IH]; [reflexivity|]. cbn [repeat map]. rewrite IH, E. reflexivity.
  Qed.
  Lemma update_ok : forall st kap, binv st kap -> sinv st -> (1 <= N)%nat -> exists st' kap',
    bf_update demode order L st = Ok st' /\ stacks st' = stacks st /\ binv st' kap' /\ (stk st 0 <> [] -> map_metric st' <> None) /\ (stk st 0 = [] -> st' = st) /\
    (map_metric st <> None -> map_metric st' <> None) /\
    (forall x, beaten (map_metric st) x -> beaten (map_metric st') x) /\ (forall nd e p, In nd (stk st 0) -> In e nd -> beaten (map_metric st') (p ++ fst e)).
  Proof.
    intros st kap HB HI HN. unfold bf_update. fold (stk st 0). destruct (stk st 0) as [|leaf others] eqn:Es.
    { exists st, kap. split; [reflexivity|]. split; [reflexivity|]. split; [exact HB|]. split; [congruence|]. split; [auto|]. split; [auto|]. split; [auto|]. intros nd e p []. }
    destruct HI as (_ & I2). destruct (I2 0%nat ltac:(lia)) as (S1 & S2). rewrite Es in S1, S2. inversion S1 as [|? ? _ S1b]. inversion S2 as [|? ? Cl S2r]. subst. rewrite Nat.sub_0_r in *. destruct (chain_head _ _ Cl) as (C1 & C2 & C3 & C4).
    assert (LM : forall nd e p, In nd (leaf :: others) -> In e nd -> (metric_of leaf <= pm (p ++ fst e))%R).
    { intros nd e p Hnd He. eapply Rle_trans; [|apply pm_app]. assert (Cn : chain N nd) by (rewrite Forall_forall in S2; apply S2, Hnd). eapply Rle_trans; [|apply (chain_min _ _ _ Cn He)]. destruct Hnd as [<-|Hnd]; [apply Rle_refl|]. rewrite Forall_forall in S1b. apply S1b, Hnd. }
    destruct HB as (B1 & B2). rewrite B1, map_map_repeat, map_map_repeat. rewrite bit_rows_ok by exact C2. cbn [bind].
    set (better := match map_metric st with None => true | Some v => if Rlt_dec (metric_of leaf) v then true else false end). destruct better eqn:Eb; cbn [bind].
    - (* new best leaf *)
      eexists _, _. split; [reflexivity|]. split; [reflexivity|]. split; [|split; [discriminate|split; [congruence|split; [discriminate|split]]]].
      + split; [reflexivity|]. cbn [map_metric map_bits]. exists (symbols_of leaf). destruct (map_metric st) as [v|] eqn:Em.
        * destruct (map_bits st) as [mb|]; [|destruct B2]. destruct B2 as (x0 & k & _ & Ev & _ & -> & Hk). unfold better in Eb. destruct (Rlt_dec (metric_of leaf) v) as [Hlt|]; [|discriminate]. cbn [min_opt clip_opt]. eexists. split; [split; assumption|]. split; [exact C3|]. split; [reflexivity|]. split; [reflexivity|]. rewrite <- C3. rewrite Rmin_comm with (x := Rmax _ _). unfold Rmin, Rmax. repeat destruct (Rle_dec _ _); lra.
        * destruct (map_bits st) as [mb|]; [destruct B2|]. subst kap. cbn [min_opt clip_opt]. eexists. split; [split; assumption|]. split; [exact C3|]. split; [reflexivity|]. split; [reflexivity|]. rewrite <- C3. lra.
      + intros x (v & Em & Hv). exists (metric_of leaf). split; [reflexivity|]. unfold better in Eb. rewrite Em in Eb. destruct (Rlt_dec (metric_of leaf) v); [lra|discriminate].
      + intros nd e p Hnd He. exists (metric_of leaf). split; [reflexivity|]. apply (LM nd); assumption.
    - unfold better in Eb. destruct (map_metric st) as [v|] eqn:Em; [|discriminate]. destruct (Rlt_dec (metric_of leaf) v) as [|Hge]; [discriminate|]. destruct (map_bits st) as [mb|]; [|destruct B2]. destruct B2 as (x0 & k & V0 & Ev & Emb & -> & Hk).
      eexists _, _. split; [reflexivity|]. split; [reflexivity|]. split; [|split; [discriminate|split; [congruence|split; [discriminate|split; [auto|]]]]].
      + split; [reflexivity|]. cbn [map_metric map_bits min_opt clip_opt]. exists x0. eexists. split; [exact V0|]. split; [exact Ev|]. split; [exact Emb|]. split; [reflexivity|]. subst v. unfold Rmin, Rmax. repeat destruct (Rle_dec _ _); lra.
      + intros nd e p Hnd He. exists v. split; [reflexivity|]. pose proof (LM nd e p Hnd He). lra.
  Qed.

  (* ---------------------------------------------------------------- trimming *)
  Hypothesis (Hsz : (N - 1 <= length stack_size)%nat) (HN : (1 <= N)%nat).
  Lemma trim_ok : forall st, sinv st -> exists ss, bf_trim stack_size st = Ok (with_stacks st ss) /\ length ss = N /\ nth 0 ss [] = [] /\
    forall i, (S i < N)%nat -> nth (S i) ss [] = firstn (nth i stack_size 0%nat) (stk st (S i)).
  Proof.
    intros st (I1 & I2). unfold bf_trim, stk. destruct (stacks st) as [|s0 up]; [cbn in I1; lia|]. cbn [length] in I1. destruct (Nat.ltb_spec (length stack_size) (length up)); [lia|]. eexists. split; [reflexivity|].
    split; [cbn [length]; rewrite map_length, combine_length; lia|]. split; [reflexivity|]. intros i Hi. cbn [nth].
    assert (G : forall (sz : list nat) (u : list (list node)) i, (i < length u)%nat -> (length u <= length sz)%nat -> nth i (map (fun ns => firstn (fst ns) (snd ns)) (combine sz u)) [] = firstn (nth i sz 0%nat) (nth i u [])).
    { clear. intros sz u. revert sz. induction u as [|a u IH]; intros [|z sz] i Hi Hl; cbn [length] in *; try lia. destruct i as [|i]; [reflexivity|]. cbn [combine map nth]. apply IH; lia. }
    apply G; lia.
  Qed.
  Lemma weight_firstn : forall i k s, (weight i (firstn k s) <= weight i s)%nat.
  Proof. intros i k. induction k as [|k IH]; intros [|a s]; cbn [firstn]; unfold weight; cbn [map fold_right]; try lia. fold (weight i (firstn k s)) (weight i s). specialize (IH s). lia. Qed.
  Lemma total_le : forall a b i, length a = length b -> (forall k, (weight (i + k) (nth k a []) <= weight (i + k) (nth k b []))%nat) -> (total i a <= total i b)%nat.
  Proof.
    induction a as [|x a IH]; intros [|y b] i Hl H; try discriminate; [cbn; lia|]. cbn [total]. pose proof (H 0%nat) as H0. cbn [nth] in H0. rewrite Nat.add_0_r in H0. specialize (IH b (S i) ltac:(cbn in Hl; lia)). assert (total (S i) a <= total (S i) b)%nat; [|lia]. apply IH. intros k. specialize (H (S k)). cbn [nth] in H. replace (S i + k)%nat with (i + S k)%nat by lia. exact H.
  Qed.
  Lemma count_le : forall st i, sinv st -> (1 <= i < N)%nat -> (length (stk st i) <= meas st)%nat.
  Proof.
    intros st i (I1 & I2) Hi. assert (W : (length (stk st i) <= weight i (stk st i))%nat).
    { destruct (I2 i ltac:(lia)) as (_ & F). induction F as [|nd l (Hnd & _) _ IH]; [cbn; lia|]. unfold weight. cbn [length map fold_right]. fold (weight i l). assert (1 <= cost i)%nat by (destruct i; [lia|cbn [cost]; lia]). assert (1 <= length nd)%nat by (destruct nd; [congruence|cbn; lia]). nia. }
    assert (T : forall ss a, (i < length ss)%nat -> (weight (a + i) (nth i ss []) <= total a ss)%nat).
    { clear. induction i as [|i IH]; intros [|s ss] a H; cbn [length] in H; try lia; cbn [nth total]; [rewrite Nat.add_0_r; lia|]. specialize (IH ss (S a) ltac:(lia)). replace (a + S i)%nat with (S a + i)%nat by lia. lia. }
    specialize (T (stacks st) 0%nat ltac:(lia)). cbn [Nat.add] in T. unfold meas. unfold stk in *. lia.
  Qed.
  Lemma busy_spec : forall st, bf_busy st = true <-> exists i, (1 <= i < length (stacks st))%nat /\ stk st i <> [].
  Proof.
    intros st. unfold bf_busy, stk. rewrite existsb_exists. split.
    - intros (s & Hs & H). destruct (stacks st) as [|s0 up]; [destruct Hs|]. cbn [tl] in Hs. destruct (In_nth up s [] Hs) as (i & Hi & E). exists (S i). cbn [length nth]. split; [lia|]. rewrite E. destruct s; [discriminate|discriminate].
    - intros (i & Hi & H). destruct (stacks st) as [|s0 up]; [cbn in Hi; lia|]. destruct i as [|i]; [lia|]. cbn [length nth tl] in *. exists (nth i up []). split; [apply nth_In; lia|]. destruct (nth i up []); [congruence|reflexivity].
  Qed.

  Definition inv (st : bf_state) : Prop := (exists kap, binv st kap) /\ sinv st.
  Lemma round_ok : forall st, inv st -> bf_busy st = true -> exists st',
    bf_round argsort yt r c demode order stack_size L st = Ok st' /\ inv st' /\ (meas st' < meas st)%nat /\ (map_metric st <> None -> map_metric st' <> None) /\
    ((N <= length yt)%nat -> Forall (fun s => (1 <= s)%nat) stack_size -> map_metric st' = None -> bf_busy st' = true) /\
    ((N <= length yt)%nat -> Forall (fun s => (meas st <= s)%nat) stack_size -> forall x, vector_of c N x -> held (stacks st) x \/ beaten (map_metric st) x -> held (stacks st') x \/ beaten (map_metric st') x) /\
    ((length yt < N)%nat -> (forall i, (length yt < N - i)%nat -> stk st i = []) -> map_metric st = None -> map_metric st' = None /\ forall i, (length yt < N - i)%nat -> stk st' i = []).
  Proof.
    intros st ((kap & HB) & HI) Hbusy. assert (L0 := proj1 HI). destruct (fold_ok (N - 1) 0 st kap HB HI ltac:(lia)) as (ss1 & E1 & I1 & _ & T1 & V1 & P1 & Q1). unfold bf_round. rewrite L0, E1. cbn [bind].
    destruct (update_ok (with_stacks st ss1) kap (binv_with _ _ _ HB) I1 HN) as (st2 & kap2 & E2 & SS2 & B2 & N2 & Z2 & K2 & M2 & F2). rewrite E2. cbn [bind]. cbn [with_stacks stacks] in SS2.
    assert (I2 : sinv st2). { destruct I1 as (A & B). unfold sinv, stk in *. rewrite SS2. split; [exact A|exact B]. }
    destruct (trim_ok st2 I2) as (ss3 & E3 & L3 & Z3 & U3). rewrite E3. assert (ST2 : forall i, stk st2 i = nth i ss1 []) by (intros i; unfold stk; rewrite SS2; reflexivity).
    exists (with_stacks st2 ss3). split; [reflexivity|].
    assert (TL : (total 0 ss3 <= total 0 ss1)%nat).
    { apply total_le; [rewrite L3; symmetry; apply I1|]. intros k. cbn [Nat.add]. destruct k as [|k]; [rewrite Z3; unfold weight; cbn; lia|]. destruct (Nat.lt_ge_cases (S k) N) as [Hk|Hk]; [|rewrite (nth_overflow ss3) by lia; unfold weight; cbn; lia]. rewrite U3, ST2 by exact Hk. apply weight_firstn. }
    assert (TD : (total 0 ss1 < meas st)%nat). { destruct T1 as [(_ & Z)|T1]; [|exact T1]. exfalso. apply busy_spec in Hbusy as (i & Hi & Hne). apply Hne, Z. lia. }
    split; [|split; [|split; [|split; [|split]]]].
    - split; [exists kap2; exact B2|]. split; [exact L3|]. intros i Hi. rewrite stk_with. destruct i as [|i]; [rewrite Z3; split; constructor|]. rewrite U3 by exact Hi. destruct I2 as (_ & I2). destruct (I2 (S i) Hi) as (A & B). split.
      + clear - A. generalize (nth i stack_size 0%nat) as t. induction A as [|z l H1 IH H2]; intros [|t]; cbn [firstn]; try constructor; [apply IH|]. rewrite Forall_forall in *. intros u Hu. apply H2. rewrite <- (firstn_skipn t l). apply in_or_app. left. exact Hu.
      + rewrite Forall_forall in *. intros z Hz. apply B. rewrite <- (firstn_skipn (nth i stack_size 0%nat) (stk st2 (S i))). apply in_or_app. left. exact Hz.
    - unfold meas at 1. cbn [with_stacks stacks]. lia.
    - exact K2.
    - intros Hn Hs Hm. cbn [with_stacks map_metric] in Hm. assert (Hm0 : map_metric st = None) by (destruct (map_metric st) eqn:E; [exfalso; apply K2; [cbn [with_stacks map_metric]; congruence|exact Hm]|reflexivity]).
      apply busy_spec in Hbusy as (i & Hi & Hne). specialize (P1 Hn Hm0 i ltac:(lia) Hne). destruct (Nat.eq_dec i 1) as [->|Hi1].
      + exfalso. apply N2; [exact P1|exact Hm].
      + apply busy_spec. exists (i - 1)%nat. cbn [with_stacks stacks]. rewrite L3. split; [lia|]. rewrite stk_with. replace (i - 1)%nat with (S (i - 2)) in P1 |- * by lia. rewrite U3 by lia. rewrite ST2. rewrite Forall_forall in Hs. assert (Hin : In (nth (i - 2) stack_size 0%nat) stack_size) by (apply nth_In; lia). specialize (Hs _ Hin). destruct (nth (i - 2) stack_size 0%nat) as [|t]; [lia|]. destruct (nth (S (i - 2)) ss1 []); [congruence|discriminate].
    - intros Hn Hs x Hx Hh. cbn [with_stacks map_metric stacks]. assert (HB' : beaten (map_metric st) x -> beaten (map_metric st2) x) by apply M2. destruct Hh as [Hh|Hb]; [|right; apply HB', Hb]. destruct (V1 Hn x Hx Hh) as [(i & nd & e & p & P & Pn & Pe & ->)|Hb]; [|right; apply HB', (out_beaten st kap x HB Hb)].
      destruct i as [|i]; [right; apply (F2 nd e p); assumption|]. left. exists (S i), nd, e, p. split; [exact P|]. split; [|auto]. rewrite U3, ST2 by exact P. rewrite Forall_forall in Hs. assert (Hin : In (nth i stack_size 0%nat) stack_size) by (apply nth_In; lia). specialize (Hs _ Hin). rewrite firstn_all2; [exact Pn|]. pose proof (count_le _ (S i) I1 ltac:(lia)) as CL. unfold stk, meas in CL. cbn [with_stacks stacks] in CL. lia.
    - intros Hn Z0 Hm. specialize (Q1 Z0). assert (E0 : stk (with_stacks st ss1) 0 = []) by (rewrite stk_with; apply Q1; lia). rewrite (Z2 E0). split; [exact Hm|]. intros i Hi. rewrite stk_with. destruct i as [|i]; [exact Z3|]. destruct (Nat.lt_ge_cases (S i) N) as [Hk|Hk]; [|lia]. rewrite U3, ST2 by exact Hk. rewrite Q1 by exact Hi. apply firstn_nil.
  Qed.

  (* ---------------------------------------------------------------- the loop ends *)
  Lemma loop_ok : forall d st, inv st -> (meas st <= d)%nat -> exists st', (forall fuel, (d <= fuel)%nat -> bf_loop argsort yt r c demode order stack_size L fuel st = Some (Ok st')) /\ inv st' /\ bf_busy st' = false /\
    ((N <= length yt)%nat -> Forall (fun s => (1 <= s)%nat) stack_size -> (map_metric st = None -> bf_busy st = true) -> map_metric st' <> None) /\
    ((N <= length yt)%nat -> Forall (fun s => (d <= s)%nat) stack_size -> forall x, vector_of c N x -> held (stacks st) x \/ beaten (map_metric st) x -> held (stacks st') x \/ beaten (map_metric st') x) /\
    ((length yt < N)%nat -> (forall i, (length yt < N - i)%nat -> stk st i = []) -> map_metric st = None -> map_metric st' = None) /\
    (stk st 0 = [] -> stk st' 0 = []).
  Proof.
    induction d as [d IH] using lt_wf_ind. intros st HI Hd. destruct (bf_busy st) eqn:Eb.
    - destruct (round_ok st HI Eb) as (st1 & E1 & I1 & M1 & K1 & P1 & V1 & Q1). destruct (IH (meas st1) ltac:(lia) st1 I1 ltac:(lia)) as (st' & EL & I' & B' & P' & V' & Q' & Z').
      exists st'. split; [|split; [exact I'|split; [exact B'|split; [|split; [|split]]]]].
      + intros [|fuel] Hf; [lia|]. cbn [bf_loop]. rewrite Eb, E1. apply EL. lia.
      + intros Hn Hs Hb. apply P'; [exact Hn|exact Hs|]. intros Hm. apply P1; assumption.
      + intros Hn Hs x Hx Hh. apply V'; [exact Hn| |exact Hx|].
        * eapply Forall_impl; [|exact Hs]. intros s H. cbv beta in H. lia.
        * apply V1; [exact Hn| |exact Hx|exact Hh]. eapply Forall_impl; [|exact Hs]. intros s H. cbv beta in H. lia.
      + intros Hn Z0 Hm. destruct (Q1 Hn Z0 Hm) as (Hm1 & Z1). apply Q'; assumption.
      + intros _. apply Z'. (* trimming empties stack 0 *) clear - E1. unfold bf_round in E1. destruct (foldM _ _ st) as [sa|]; [|discriminate]. cbn [bind] in E1. destruct (bf_update _ _ _ sa) as [sb|]; [|discriminate]. cbn [bind] in E1. unfold bf_trim in E1. destruct (stacks sb) as [|s0 up] eqn:Es; [injection E1 as <-; unfold stk; rewrite Es; reflexivity|]. destruct (_ <? _)%nat; [discriminate|]. injection E1 as <-. reflexivity.
    - exists st. split; [intros [|fuel] _; cbn [bf_loop]; rewrite Eb; reflexivity|]. split; [exact HI|]. split; [exact Eb|]. split; [intros _ _ H E; specialize (H E); congruence|]. split; [auto|]. split; auto.
  Qed.
End BF.
