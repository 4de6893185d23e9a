(* Model of links built by LinkModel (/repo/commpy/links.py 138-153) without a channel code, as in its documentation and in
   /repo/commpy/tests/test_links.py 33-62: modulate = modem.modulate, decoder = None, rate 1, and
     - a SISOFlatChannel with the receiver   lambda y, h, constellation, noise_var: modem.demodulate(y, 'hard')
     - a MIMOFlatChannel with the receiver   lambda y, h, constellation, noise_var: modem.demodulate(detector(y, h, constellation), 'hard')
       where the detector is mimo_ml(y, h, constellation) or kbest(y, h, constellation, K). *)
From Verif Require Import Base UtilModel Cplx ModemModel MimoModel ChannelModel LinksModel.
Open Scope Z_scope.

(* everything random, indexed by the number of the transmission: the bits of np.random.choice((0, 1), n) (links.py 229, 314), the
   standard_normal draws of the noise (channels.py 49-55: symbol; or vector, antenna) and of the gains (channels.py 212-217, 371-374) *)
Record siso_draws := { b_bits : nat -> nat -> bool; b_n1 : nat -> nat -> R; b_n2 : nat -> nat -> R; b_g1 : nat -> nat -> R; b_g2 : nat -> nat -> R }.
Record mimo_draws := {
  u_bits : nat -> nat -> bool; u_n1 : nat -> nat -> nat -> R; u_n2 : nat -> nat -> nat -> R;
  u_g1 : nat -> nat -> nat -> nat -> R; u_g2 : nat -> nat -> nat -> nat -> R }.
(* the channel object and the number of transmissions made *)
Record siso_world := { sw_channel : siso; sw_sent : nat }.
Record mimo_world := { mw_channel : mimo; mw_sent : nat }.

(* LinkModel(modem.modulate, channel, receiver, modem.num_bits_symbol, modem.constellation, modem.Es).  Rate 1: float(code_rate) is 1.0
   and math.ceil(len(msg) / 1.0) = len(msg).  RuntimeError stands for outputs that are NaN (negative Es). *)
Definition siso_link (dr : siso_draws) (md : modem) : link siso_world R C C C Z := {|
  num_bits_symbol := num_bits md; nb_tx := 1; is_mimo := false;
  l_set_snr := fun w snr => match siso_do (sw_channel w) (SSnrDB snr 1 (energy md)) with
                            | (ch, Ok _) => Ok {| sw_channel := ch; sw_sent := sw_sent w |}
                            | (_, Err e) => Err e end;
  l_choice := fun w n => (map (fun i => Z.b2z (b_bits dr (sw_sent w) i)) (seq 0 n), w);
  l_modulate := fun w bits => s <- modulate md bits ;; Ok (s, w);
  l_propagate := fun w symbs =>
    match siso_propagate (sw_channel w) symbs true (b_n1 dr (sw_sent w)) (b_n2 dr (sw_sent w)) (b_g1 dr (sw_sent w)) (b_g2 dr (sw_sent w)) with
    | (ch, Ok (Num y)) => Ok (y, match s_gains ch with Some (Num g) => g | _ => [] end, {| sw_channel := ch; sw_sent := S (sw_sent w) |})
    | (_, Ok NaNs) => Err RuntimeError
    | (_, Err e) => Err e
    end;
  l_receive := fun _ y _ => r <- demodulate md y Hard 0%R ;; (match r with inl l => Ok l | inr _ => Err TypeError end);
  l_receive1 := fun _ _ _ => Err TypeError;
  l_decoder := fun w _ _ received _ => Ok (received, w);
  l_received_len := fun len => Z.to_nat len;
  l_empty := fun _ => 0 |}.

(* [sqrtm]: scipy's matrix square root (see mimo_propagate); [detect t y h]: the detector, t transmissions having been made; [tx]: channel.nb_tx;
   [empty]: the contents of the np.empty of links.py 237, 323 *)
Definition mimo_link (dr : mimo_draws) (sqrtm : list (list C) -> list (list C) * bool) (md : modem) (detect : nat -> list C -> list (list C) -> res (list C))
                     (empty : nat -> Z) (tx : nat) : link mimo_world R C (list C) (list (list C)) Z := {|
  num_bits_symbol := num_bits md; nb_tx := tx; is_mimo := true;
  l_set_snr := fun w snr => match mimo_do (mw_channel w) (MSnrDB snr 1 (energy md)) with
                            | (ch, Ok _) => Ok {| mw_channel := ch; mw_sent := mw_sent w |}
                            | (_, Err e) => Err e end;
  l_choice := fun w n => (map (fun i => Z.b2z (u_bits dr (mw_sent w) i)) (seq 0 n), w);
  l_modulate := fun w bits => s <- modulate md bits ;; Ok (s, w);
  l_propagate := fun w symbs =>
    match mimo_propagate sqrtm (mw_channel w) symbs true (u_n1 dr (mw_sent w)) (u_n2 dr (mw_sent w)) (u_g1 dr (mw_sent w)) (u_g2 dr (mw_sent w)) with
    | (ch, Ok (Num y)) => Ok (y, match m_gains ch with Some (Num g) => g | _ => [] end, {| mw_channel := ch; mw_sent := S (mw_sent w) |})
    | (_, Ok NaNs) => Err RuntimeError
    | (_, Err e) => Err e
    end;
  l_receive := fun _ _ _ => Err TypeError;
  l_receive1 := fun w y h => x <- detect (mw_sent w) y h ;; r <- demodulate md x Hard 0%R ;; (match r with inl l => Ok l | inr _ => Err TypeError end);
  l_decoder := fun w _ _ received _ => Ok (received, w);
  l_received_len := fun len => Z.to_nat len;
  l_empty := empty |}.

(* detector mimo_ml(y, h, modem.constellation) (modulation.py 299-322); n: the number of columns of h *)
Definition ml_detect (md : modem) (n : nat) : nat -> list C -> list (list C) -> res (list C) := fun _ y h => mimo_ml y h n (points md).
(* detector kbest(y, h, modem.constellation, K) (modulation.py 325-419), hard output, noise_var 0 and demode None by default.
   [qr]: numpy's qr; [garbage]: the contents of its np.empty, by transmission *)
Definition kbest_detect (argsort : list R -> list nat) (qr : list (list C) -> list (list C) * list (list C)) (garbage : nat -> list C) (md : modem) (n K : nat)
    : nat -> list C -> list (list C) -> res (list C) :=
  fun t y h => r <- kbest argsort (garbage t) y h (fst (qr h)) (snd (qr h)) n (points md) K 0%R Hard (fun _ => Err TypeError) ;;
               (match r with KHard x => Ok x | KSoft _ => Err TypeError end).

(* links.py 155-267 and 269-342 on these links, code_rate = 1 (the default) *)
Definition siso_performance (dr : siso_draws) (md : modem) (channel : siso) (fuel : nat) (snrs : list R) (send_max err_min : Z) (send_chunk : option Z) : res (list (option (Z * Z))) :=
  link_performance fuel (siso_link dr md) {| sw_channel := channel; sw_sent := 0 |} snrs send_max err_min send_chunk 1 1.
Definition siso_full_metrics (dr : siso_draws) (md : modem) (channel : siso) (snrs : list R) (tx_max : nat) (err_min : Z) (send_chunk : option Z) (ncps : nat) (stop : bool) : res (list metrics) :=
  link_performance_full_metrics (siso_link dr md) {| sw_channel := channel; sw_sent := 0 |} snrs tx_max err_min send_chunk 1 1 ncps stop.
Definition mimo_performance (dr : mimo_draws) sqrtm (md : modem) detect empty (channel : mimo) (fuel : nat) (snrs : list R) (send_max err_min : Z) (send_chunk : option Z) : res (list (option (Z * Z))) :=
  link_performance fuel (mimo_link dr sqrtm md detect empty (t_nb channel)) {| mw_channel := channel; mw_sent := 0 |} snrs send_max err_min send_chunk 1 1.
Definition mimo_full_metrics (dr : mimo_draws) sqrtm (md : modem) detect empty (channel : mimo) (snrs : list R) (tx_max : nat) (err_min : Z) (send_chunk : option Z) (ncps : nat) (stop : bool) : res (list metrics) :=
  link_performance_full_metrics (mimo_link dr sqrtm md detect empty (t_nb channel)) {| mw_channel := channel; mw_sent := 0 |} snrs tx_max err_min send_chunk 1 1 ncps stop.
