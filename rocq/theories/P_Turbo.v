(* Properties C35, C36: turbo.py.  See TurboSpec.v (half_rate, systematic, linear, parity, fed, weight, evidence, agrees), ViterbiSpec.v (carries). *)
From Coq Require Import Reals Lra.
From Verif Require Import Base UtilModel SeqModel TrellisModel TrellisSpec FloatRate ConvProofs ConvMore LegacyModel ViterbiModel ViterbiSpec TurboModel TurboSpec TurboTop.
Local Open Scope Z_scope.

(* ---------------------------------------------------------------- C35 *)

Theorem C35_streams :
forall (tr1 tr2 : Trellis) (p : list nat) (msg : list Z),
    half_rate tr1 -> half_rate tr2 -> systematic tr1 -> (1 <= tr_M tr1)%nat -> (1 <= tr_M tr2)%nat -> bits msg -> is_perm (length msg) p ->
    Z.of_nat (length msg + tr_M tr1) * 2 < 2 ^ 49 -> Z.of_nat (length msg + tr_M tr2) * 2 < 2 ^ 49 ->
    let pmsg := map (fun i => nth i msg 0) p in
    (* the third stream is not cut to the message length: 2 * length msg + total_memory entries, zeros at the end *)
    turbo_encode msg tr1 tr2 p =
      Ok (msg, parity tr1 msg, parity tr2 (fed tr2 pmsg) ++ repeat 0 (2 * length msg + tr_M tr2 - length (fed tr2 pmsg))).
Proof. exact C35_streams_proof. Qed.
Print Assumptions C35_streams.
Example C35_witness : exists tr row, make_trellis_int [2%nat] 2 [[1; 7]] 5 true = Ok (tr, row) /\ half_rate tr /\ systematic tr /\ tr_M tr = 2%nat /\ is_perm 4 [2; 0; 3; 1]%nat /\
  turbo_encode [1; 1; 0; 1] tr tr [2; 0; 3; 1]%nat = Ok ([1; 1; 0; 1], [1; 0; 1; 0], [0; 1; 0; 0; 0; 0; 0; 0; 0; 0]).
Proof.
  destruct (C35_constructors_proof 2 [1; 7] 5 ltac:(lia) ltac:(cbn; lia) ltac:(intros [|[|[|r]]] Hr; cbn; lia) ltac:(cbn; lia)) as (tr & E & H1 & H2 & _ & H3 & _).
  exists tr. eexists. split; [exact E|]. split; [exact H1|]. split; [exact H2|]. split; [exact H3|]. split.
  - split; [reflexivity|]. split; [repeat constructor; cbn; intuition lia|cbn; intuition lia].
  - vm_compute in E. injection E as <-. vm_compute. reflexivity.
Qed.

Theorem C35_memoryless_refuted :
(* a memoryless first component (total_memory 0): the slice [0:-0] discards the message *)
  exists (tr : Trellis) (p : list nat) (msg : list Z), half_rate tr /\ systematic tr /\ bits msg /\ is_perm (length msg) p /\ msg = [1; 0; 1] /\
    turbo_encode msg tr tr p = Ok ([], [], []).
Proof. exact C35_memoryless_refuted_proof. Qed.
Print Assumptions C35_memoryless_refuted.

Theorem C35_constructors :
forall (mem : nat) (g_row : list Z) (feedback : Z), (1 <= mem)%nat -> (2 <= length g_row)%nat ->
    (forall r : nat, (r < 2)%nat -> 0 <= nth r g_row 0 < 2 ^ Z.of_nat (mem + 1)) -> 2 ^ Z.of_nat mem <= feedback < 2 ^ Z.of_nat (mem + 1) ->
    exists tr : Trellis, make_trellis_int [mem] 2 [g_row] feedback true = Ok (tr, [upd g_row 0 feedback]) /\ half_rate tr /\ systematic tr /\ linear tr /\ tr_M tr = mem /\ tr_rsc tr = true.
Proof. exact C35_constructors_proof. Qed.
Print Assumptions C35_constructors.

Theorem C35_matrix_constructor :
(* the matrix constructor with first generator 1 *)
  forall (garbage : regs) (C : code) (rsc : bool), well_formed C -> kk C = 1%nat -> outs C = 2%nat -> (forall d, gcoef C 0 0 d = (d =? 0)%nat) ->
    exists tr : Trellis, trellis_of garbage C rsc = Ok tr /\ half_rate tr /\ systematic tr /\ linear tr /\ tr_M tr = MM C /\ tr_rsc tr = rsc.
Proof. exact C35_matrix_constructor_proof. Qed.
Print Assumptions C35_matrix_constructor.
(* G(D) = [1, (1+D+D^2) ...], feedback 1+D^2 *)
Definition codeS := {| memory := [2%nat]; outs := 2; gens := [[1; 7]]; fback := Some [[5]]; fmt := MSB |}.
Example C35_matrix_witness : well_formed codeS /\ kk codeS = 1%nat /\ outs codeS = 2%nat /\ (forall d, gcoef codeS 0 0 d = (d =? 0)%nat).
Proof.
  split; [apply wf_check_ok; reflexivity|]. split; [reflexivity|]. split; [reflexivity|]. intros d. unfold gcoef, pcoef. cbn [fmt codeS gens mat_get nth].
  destruct d as [|d]; [reflexivity|]. apply Z.bits_above_log2; cbn; lia.
Qed.

(* ---------------------------------------------------------------- C36 *)

Theorem C36_posterior :
forall (tr : Trellis) (v : R) (sys par L : list R) (decode : bool), half_rate tr -> (length sys <= length par)%nat -> length L = length sys -> (0 < v)%R ->
    let N := length sys in
    exists (L_ext : list R) (decoded : list Z), map_decode sys par tr v L decode = Ok (L_ext, decoded) /\ length L_ext = N /\ length decoded = N /\
      forall t, (t < N)%nat ->
        let e0 := evidence tr v sys par L N t 0 in let e1 := evidence tr v sys par L N t 1 in
        (0 < e0)%R /\ (0 < e1)%R /\ nth t L_ext 0%R = ln (e1 / e0) /\
        ((nth t decoded 0 = 1 /\ decode = true /\ (e0 < e1)%R) \/ (nth t decoded 0 = 0 /\ (decode = true -> (e1 <= e0)%R))).
Proof. exact C36_posterior_proof. Qed.
Print Assumptions C36_posterior.
Example C36_witness : exists tr row, make_trellis_int [2%nat] 2 [[1; 7]] 5 true = Ok (tr, row) /\ half_rate tr /\ length [0.3; -1.2; 0.1]%R = length [0; 1; 0]%R.
Proof.
  destruct (C35_constructors_proof 2 [1; 7] 5 ltac:(lia) ltac:(cbn; lia) ltac:(intros [|[|[|r]]] Hr; cbn; lia) ltac:(cbn; lia)) as (tr & E & H1 & _).
  exists tr. eexists. split; [exact E|]. split; [exact H1|reflexivity].
Qed.

Theorem C36_corrects :
(* equal priors: whenever the received values are closer to the message's code word than to every other one, by a margin of
     more than 2 v (N - 1) ln 2 in squared distance, the MAP decoder returns the message (signs of received values may be wrong) *)
  forall (tr : Trellis) (v : R) (sys par : list R) (msg : list Z), half_rate tr -> (length sys <= length par)%nat -> length msg = length sys -> bits msg -> (0 < v)%R ->
    (forall us, length us = length msg -> bits us -> us <> msg -> (sq_dist (words tr 0 us) sys par > sq_dist (words tr 0 msg) sys par + 2 * v * INR (length msg - 1) * ln 2)%R) ->
    exists L_ext, map_decode sys par tr v (repeat 0%R (length msg)) true = Ok (L_ext, msg).
Proof. exact C36_corrects_proof. Qed.
Print Assumptions C36_corrects.
(* the second systematic value has the wrong sign; v = 1/4 *)
Example C36_corrects_witness : exists tr row, make_trellis_int [2%nat] 2 [[1; 7]] 5 true = Ok (tr, row) /\ half_rate tr /\
  forall us, length us = 2%nat -> bits us -> us <> [1; 1] ->
    (sq_dist (words tr 0 us) [1; -0.1] [1; -1] > sq_dist (words tr 0 [1; 1]%Z) [1; -0.1] [1; -1] + 2 * (1 / 4) * INR (2 - 1) * ln 2)%R.
Proof.
  destruct (C35_constructors_proof 2 [1; 7] 5 ltac:(lia) ltac:(cbn; lia) ltac:(intros [|[|[|r]]] Hr; cbn; lia) ltac:(cbn; lia)) as (tr & E & H1 & _).
  exists tr. eexists. split; [exact E|]. split; [exact H1|]. vm_compute in E. injection E as <-. intros us Hl Hb Hne.
  assert (L2 : (ln 2 < 1)%R) by (rewrite <- (ln_exp 1); apply ln_increasing; [lra|pose proof (exp_ineq1 1); lra]).
  destruct us as [|a [|b [|]]]; try discriminate Hl. inversion Hb as [|? ? Ha Hb']; subst. inversion Hb' as [|? ? Hb0 _]; subst.
  destruct Ha as [-> | ->], Hb0 as [-> | ->]; try congruence;
    repeat match goal with |- context [words ?T 0%Z [?x; ?y]] => let w := eval vm_compute in (words T 0%Z [x; y]) in change (words T 0%Z [x; y]) with w end;
    cbn [sq_dist hd tl]; change (2 * 0 - 1)%Z with (-1)%Z; change (2 * 1 - 1)%Z with 1%Z; change (INR (2 - 1)) with 1%R; lra.
Qed.

Theorem C36_prior_length :
forall (tr : Trellis) (v : R) (sys par L : list R) (decode : bool), length L <> length sys -> length L <> 1%nat -> map_decode sys par tr v L decode = Err ValueError.
Proof. exact C36_prior_length_proof. Qed.
Print Assumptions C36_prior_length.

Theorem C36_single_prior :
(* a single a-priori value is not spread over the symbols: whenever the call with that value repeated succeeds, the call with the single
     value raises IndexError *)
  forall (tr : Trellis) (v l : R) (sys par : list R) (decode : bool) x, (2 <= length sys)%nat -> map_decode sys par tr v (repeat l (length sys)) decode = Ok x -> map_decode sys par tr v [l] decode = Err IndexError.
Proof. exact C36_single_prior_proof. Qed.
Print Assumptions C36_single_prior.

Theorem C36_turbo_noiseless :
(* values whose signs do not contradict the transmitted streams, with non-zero systematic values, are decoded to
     the message: for every linear systematic rate 1/2 trellis, interleaver, noise variance and iteration count *)
  forall (tr : Trellis) (p : list nat) (msg s p1 p2 : list Z) (sys par1 par2 : list R) (v : R) (iterations : nat) (L_int : option (list R)),
    half_rate tr -> systematic tr -> linear tr -> (1 <= tr_M tr)%nat -> bits msg -> is_perm (length msg) p -> Z.of_nat (length msg + tr_M tr) * 2 < 2 ^ 49 ->
    turbo_encode msg tr tr p = Ok (s, p1, p2) ->
    Forall2 carries sys s -> Forall2 agrees par1 p1 -> Forall2 agrees par2 p2 ->
    match L_int with None => True | Some l => Forall2 agrees l msg end -> (0 < v)%R -> (1 <= iterations)%nat ->
    turbo_decode sys par1 par2 tr v iterations p L_int = Ok msg.
Proof. exact C36_turbo_noiseless_proof. Qed.
Print Assumptions C36_turbo_noiseless.
Example C36_noiseless_witness : exists tr row s p1 p2, make_trellis_int [2%nat] 2 [[1; 7]] 5 true = Ok (tr, row) /\ half_rate tr /\ systematic tr /\ linear tr /\ tr_M tr = 2%nat /\
  turbo_encode [1; 1; 0; 1] tr tr [2; 0; 3; 1]%nat = Ok (s, p1, p2) /\ Forall2 carries [0.1; 7; -0.3; 1]%R s /\ Forall2 agrees [1; 0; 2; 0]%R p1 /\
  Forall2 agrees [-1; 3; 0; -1; 0; 0; 0; 0; -1; -2]%R p2.
Proof.
  destruct (C35_constructors_proof 2 [1; 7] 5 ltac:(lia) ltac:(cbn; lia) ltac:(intros [|[|[|r]]] Hr; cbn; lia) ltac:(cbn; lia)) as (tr & E & H1 & H2 & H4 & H3 & _).
  exists tr. do 4 eexists. split; [exact E|]. split; [exact H1|]. split; [exact H2|]. split; [exact H4|]. split; [exact H3|].
  vm_compute in E. injection E as <-. split; [vm_compute; reflexivity|].
  split; [|split]; repeat (apply Forall2_cons; [|]); try apply Forall2_nil; unfold carries, agrees; try (split; intros; lra || discriminate).
  all: first [left; split; [reflexivity|lra]|right; split; [reflexivity|lra]].
Qed.

Theorem C36_no_iteration :
forall (tr : Trellis) (p : list nat) (sys par1 par2 : list R) (v : R) (L_int : option (list R)),
    (forall i, In i p -> (i < length sys)%nat) -> turbo_decode sys par1 par2 tr v 0 p L_int = Err UnboundLocalError.
Proof. exact C36_no_iteration_proof. Qed.
Print Assumptions C36_no_iteration.
