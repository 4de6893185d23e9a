(* Model of Wifi80211.link_performance (/repo/commpy/wifi80211.py 132-216) over a SISOFlatChannel with the default receiver: the
   functions modulate, _receiver and decoder_soft, the LinkModel built from them, and the call of link_performance_full_metrics.
   Not modelled: MIMO channels and custom receivers (LinksModel.v treats arbitrary functions). *)
From Verif Require Import Base UtilModel Cplx TrellisModel PunctModel ViterbiModel ViterbiReal ModemModel MimoModel ChannelModel LinksModel WifiModel.
Open Scope Z_scope.

(* everything random or uninitialised: the bits of np.random.choice((0, 1), n) (links.py 229), the standard_normal draws of the channel
   (channels.py 49-55, 212-216), the contents of the np.empty arrays of viterbi_decode; indexed by the number of the transmission *)
Record wifi_draws := {
  d_bits : nat -> nat -> bool;
  d_n1 : nat -> nat -> R; d_n2 : nat -> nat -> R; d_g1 : nat -> nat -> R; d_g2 : nat -> nat -> R;
  d_paths : nat -> nat -> nat -> Z; d_scratch : nat -> nat -> scratch R; d_empty : nat -> Z }.
(* the channel object and the number of transmissions made *)
Record wifi_world := { w_channel : siso; w_sent : nat }.

(* wifi80211.py 51-73 get_modem *)
Definition wifi_get_modem (mcs : Z) : res modem :=
  k <- wifi_modem mcs ;; if fst k then psk_modem (Z.to_nat (snd k)) else qam_modem (Z.to_nat (snd k)).

(* wifi80211.py 174-210: LinkModel(modulate, channel, receiver, modem.num_bits_symbol, modem.constellation, modem.Es, decoder_soft, ...).
   rate: float(code_rate).  modem.modulate returns complex numbers.  A NaN channel output (negative SNR is not possible, a negative Es
   or fading variance is) is not modelled: RuntimeError stands for it. *)
Definition wifi_link (dr : wifi_draws) (tr : Trellis) (coding : Z * Z) (md : modem) (rate : R) : link wifi_world R C C C R := {|
  num_bits_symbol := num_bits md; nb_tx := 1; is_mimo := false;
  l_set_snr := fun w snr => match siso_do (w_channel w) (SSnrDB snr rate (energy md)) with
                            | (ch, Ok _) => Ok {| w_channel := ch; w_sent := w_sent w |}
                            | (_, Err e) => Err e end;
  l_choice := fun w n => (map (fun i => Z.b2z (d_bits dr (w_sent w) i)) (seq 0 n), w);
  l_modulate := fun w bits => out <- wifi_code_bits tr coding bits ;; s <- modulate md out ;; Ok (s, w);
  l_propagate := fun w symbs =>
    match siso_propagate (w_channel w) symbs true (d_n1 dr (w_sent w)) (d_n2 dr (w_sent w)) (d_g1 dr (w_sent w)) (d_g2 dr (w_sent w)) with
    | (ch, Ok (Num y)) => Ok (y, match s_gains ch with Some (Num g) => g | _ => [] end, {| w_channel := ch; w_sent := S (w_sent w) |})
    | (_, Ok NaNs) => Err RuntimeError
    | (_, Err e) => Err e
    end;
  l_receive := fun w y _ => match s_std (w_channel w) with
                            | Some (Some s) => r <- demodulate md y Soft (s * s)%R ;; (match r with inr l => Ok l | inl _ => Err TypeError end)
                            | _ => Err RuntimeError end;
  l_receive1 := fun _ _ _ => Err TypeError;
  l_decoder := fun w _ _ received _ =>
    r <- wifi_decode tr coding received (d_paths dr (w_sent w)) (d_scratch dr (w_sent w)) ;;
    Ok (map (fun o => match o with Some b => b | None => d_empty dr (w_sent w) end) (fst r), w);
  l_received_len := fun len => Z.to_nat (received_len (fst coding) (snd coding) len);
  l_empty := fun _ => 0%R |}.

(* wifi80211.py 132-216; garbage: uninitialised registers of the Trellis constructor *)
Definition wifi_link_performance (garbage : regs) (dr : wifi_draws) (mcs : Z) (channel : siso) (snrs : list R) (tx_max : nat) (err_min : Z) (send_chunk : option Z)
    (frame_aggregation : nat) (stop : bool) : res (list metrics) :=
  tr <- wifi_trellis garbage ;;
  coding <- wifi_coding mcs ;;
  md <- wifi_get_modem mcs ;;
  let '(p, q) := link_rate (fst coding) (snd coding) in
  link_performance_full_metrics (wifi_link dr tr coding md (IZR p / IZR q)) {| w_channel := channel; w_sent := 0 |} snrs tx_max err_min send_chunk p q frame_aggregation stop.
