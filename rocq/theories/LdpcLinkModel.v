(* Model of an LDPC-coded MIMO link built with LinkModel (/repo/commpy/links.py 138-153), as in /repo/commpy/tests/test_links.py 64-91:
     modulate = lambda bits: modem.modulate(triang_ldpc_systematic_encode(bits, ldpc_params, False).reshape(-1, order='F'))
     decoder  = lambda llrs: ldpc_bp_decode(llrs, ldpc_params, algorithm, n_iters)[0][:k].reshape(-1, order='F')
     receiver = lambda y, h, constellation, noise_var: best_first_detector(y, h, constellation, stack_size, noise_var, demode, llr_max)
     demode   = lambda symbs: modem.demodulate(symbs, 'hard')
   The dictionary ldpc_params is part of the state: the encoder and the decoder add the matrices to it. *)
From Verif Require Import Base UtilModel Cplx ModemModel MimoModel ChannelModel LinksModel WifiModel UncodedLinkModel.
From Verif Require LdpcModel LdpcDecModel LdpcBPSpec.
Open Scope Z_scope.

(* the channel object, the number of transmissions made, the dictionary ldpc_params *)
Record coded_world := { lw_channel : mimo; lw_sent : nat; lw_code : LdpcModel.ldpc }.

(* [detect t y h]: the receiver, t transmissions having been made; [p]/[q]: code_rate; [k]: message bits per block;
   [empty]: the contents of the np.empty of links.py 237, 323.  float(code_rate) in set_SNR_dB is taken to be exactly p/q;
   l_received_len is computed in double precision.  RuntimeError stands for outputs that are NaN (negative Es). *)
Definition coded_link (dr : mimo_draws) (sqrtm : list (list C) -> list (list C) * bool) (md : modem) (detect : nat -> list C -> list (list C) -> res (list R))
                      (algo : LdpcDecModel.algorithm) (n_iters k : nat) (p q : Z) (empty : nat -> R) (tx : nat) : link coded_world R C (list C) (list (list C)) R := {|
  num_bits_symbol := num_bits md; nb_tx := tx; is_mimo := true;
  l_set_snr := fun w snr => match mimo_do (lw_channel w) (MSnrDB snr (IZR p / IZR q) (energy md)) with
                            | (ch, Ok _) => Ok {| lw_channel := ch; lw_sent := lw_sent w; lw_code := lw_code w |}
                            | (_, Err e) => Err e end;
  l_choice := fun w n => (map (fun i => Z.b2z (u_bits dr (lw_sent w) i)) (seq 0 n), w);
  l_modulate := fun w bits =>
    match LdpcModel.triang_encode bits (lw_code w) false with
    | (code, Ok blocks) => s <- modulate md (concat blocks) ;; Ok (s, {| lw_channel := lw_channel w; lw_sent := lw_sent w; lw_code := code |})
    | (_, Err e) => Err e
    end;
  l_propagate := fun w symbs =>
    match mimo_propagate sqrtm (lw_channel w) symbs true (u_n1 dr (lw_sent w)) (u_n2 dr (lw_sent w)) (u_g1 dr (lw_sent w)) (u_g2 dr (lw_sent w)) with
    | (ch, Ok (Num y)) => Ok (y, match m_gains ch with Some (Num g) => g | _ => [] end, {| lw_channel := ch; lw_sent := S (lw_sent w); lw_code := lw_code w |})
    | (_, Ok NaNs) => Err RuntimeError
    | (_, Err e) => Err e
    end;
  l_receive := fun _ _ _ => Err TypeError;
  l_receive1 := fun w y h => detect (lw_sent w) y h;
  l_decoder := fun w _ _ received _ =>
    match LdpcDecModel.ldpc_bp_decode LdpcBPSpec.real_ops received (lw_code w) algo n_iters with
    | (_, code, Ok outs) => Ok (flat_map (fun o => firstn k (map Z.b2z (fst o))) outs, {| lw_channel := lw_channel w; lw_sent := lw_sent w; lw_code := code |})
    | (_, _, Err e) => Err e
    end;
  l_received_len := fun len => Z.to_nat (received_len p q len);
  l_empty := empty |}.

(* receiver best_first_detector(y, h, modem.constellation, sizes, noise_var, demode, llr_max) (modulation.py 422-565; noise_var is not used
   there).  [qr]: numpy's qr; n: the number of columns of h; fuel: bound on the number of rounds of the search (OutOfFuel beyond it) *)
Definition best_first_detect (argsort : list R -> list nat) (qr : list (list C) -> list (list C) * list (list C)) (md : modem) (n : nat) (sizes : list nat) (llr_max : R) (rounds : nat)
    : nat -> list C -> list (list C) -> res (list R) :=
  fun _ y h =>
    match best_first_detector argsort rounds y h (fst (qr h)) (snd (qr h)) n (points md) sizes
            (fun x => match demodulate md x Hard 0%R with Ok (inl b) => Ok b | Ok (inr _) => Err TypeError | Err e => Err e end) llr_max with
    | Some r => r
    | None => Err OutOfFuel
    end.

(* links.py 155-267 and 269-342 on this link, with code_rate = p/q *)
Definition coded_performance (dr : mimo_draws) sqrtm (md : modem) detect algo n_iters k p q empty (channel : mimo) (code : LdpcModel.ldpc) (fuel : nat) (snrs : list R) (send_max err_min : Z) (send_chunk : option Z) : res (list (option (Z * Z))) :=
  link_performance fuel (coded_link dr sqrtm md detect algo n_iters k p q empty (t_nb channel)) {| lw_channel := channel; lw_sent := 0; lw_code := code |} snrs send_max err_min send_chunk p q.
Definition coded_full_metrics (dr : mimo_draws) sqrtm (md : modem) detect algo n_iters k p q empty (channel : mimo) (code : LdpcModel.ldpc) (snrs : list R) (tx_max : nat) (err_min : Z) (send_chunk : option Z) (ncps : nat) (stop : bool) : res (list metrics) :=
  link_performance_full_metrics (coded_link dr sqrtm md detect algo n_iters k p q empty (t_nb channel)) {| lw_channel := channel; lw_sent := 0; lw_code := code |} snrs tx_max err_min send_chunk p q ncps stop.
