(* Model of /repo/commpy/wifi80211.py: parameters, coding and decoding chain (the modem itself is not part of this file). *)
From Coq Require Import Reals.
From Verif Require Import Base UtilModel TrellisModel PunctModel ViterbiModel ViterbiReal LinksModel.

(* wifi80211.py 48-49: memory = np.array(6, ndmin=1), generator_matrix = np.array((133, 171), ndmin=2) *)
Definition wifi_memory : list nat := [6%nat].
Definition wifi_generators : list (list Z) := [[133; 171]].

(* wifi80211.py 106-108 _get_trellis: cc.Trellis(memory, generator_matrix) with the defaults feedback=None,
   code_type='default', polynomial_format='MSB' *)
Definition wifi_trellis (garbage : regs) : res Trellis := make_trellis garbage wifi_memory 2 wifi_generators None false MSB.

(* wifi80211.py 51-73 get_modem: (PSK?, size of the constellation) *)
Definition wifi_sizes : list Z := [2; 4; 4; 16; 16; 64; 64; 64; 256; 256].
Definition wifi_modem (mcs : Z) : res (bool * Z) := m <- py_get wifi_sizes mcs ;; Ok (mcs <=? 2, m).
(* modulation.py 86 num_bits_symbol = int(np.log2(m)) *)
Definition wifi_bits_per_symbol (m : Z) : Z := Z.log2 m.

(* wifi80211.py 75-89 _get_puncture_matrix *)
Definition wifi_puncture_matrix (numerator denominator : Z) : option (list Z) :=
  if (numerator =? 1) && (denominator =? 2) then None
  else if (numerator =? 2) && (denominator =? 3) then Some [1; 1; 1; 0]
  else if (numerator =? 3) && (denominator =? 4) then Some [1; 1; 1; 0; 0; 1]
  else if (numerator =? 5) && (denominator =? 6) then Some [1; 1; 1; 0; 0; 1; 1; 0; 0; 1]
  else None.

(* wifi80211.py 91-104 _get_coding *)
Definition wifi_codings : list (Z * Z) := [(1, 2); (1, 2); (3, 4); (1, 2); (3, 4); (2, 3); (3, 4); (5, 6); (3, 4); (5, 6)].
Definition wifi_coding (mcs : Z) : res (Z * Z) := py_get wifi_codings mcs.

(* coding[0] / coding[1] as a float, Fraction(float): the exact rational value of the double, reduced *)
Definition fraction_of_float (f : Z * Z) : Z * Z :=
  let '(m, e) := f in
  let num := m * 2 ^ Z.max e 0 in let den := 2 ^ Z.max (- e) 0 in
  (num / Z.gcd num den, den / Z.gcd num den).
(* links.py 209-210: Fraction(code_rate).limit_denominator(100) for the float code_rate = p / q *)
Definition link_rate (p q : Z) : Z * Z := let '(n, d) := fraction_of_float (rnd64 p q) in limit_denominator 100 n d.

(* links.py 236: int(math.ceil(len(msg) / float(self.rate))), self.rate = p/q; len(msg) > 0 *)
Definition ceil_of_float (f : Z * Z) : Z := let '(m, e) := f in - ((- (m * 2 ^ Z.max e 0)) / 2 ^ Z.max (- e) 0).
Definition received_len (p q len : Z) : Z :=
  let '(m, e) := rnd64 p q in ceil_of_float (rnd64 (len * 2 ^ Z.max (- e) 0) (m * 2 ^ Z.max e 0)).

(* wifi80211.py 200: math.ceil(len(msg) * coding[0] / coding[1] * 2); len(msg) > 0; the multiplication by 2 is exact *)
Definition wifi_coded_len (len p q : Z) : Z := let '(m, e) := rnd64 (len * p) q in ceil_of_float (m, e + 1).

(* wifi80211.py 178-185 modulate, up to the modem: encode, puncture *)
Definition wifi_code_bits (tr : Trellis) (coding : Z * Z) (bits : list Z) : res (list Z) :=
  r <- conv_encode bits tr Cont None ;;
  match wifi_puncture_matrix (fst coding) (snd coding) with Some pv => puncturing r pv | None => Ok r end.

(* wifi80211.py 195-206 decoder_soft: an IndexError of depuncturing is caught and the message is decoded as it is *)
Definition wifi_decode (tr : Trellis) (coding : Z * Z) (msg : list R) gp (gs : nat -> scratch R) : res (list (option Z) * list R) :=
  msg_d <- (match wifi_puncture_matrix (fst coding) (snd coding) with
            | None => Ok msg
            | Some pv => match depuncturing 0%R msg pv (Z.to_nat (wifi_coded_len (Z.of_nat (length msg)) (fst coding) (snd coding))) with
                         | Ok d => Ok d
                         | Err IndexError => Ok msg
                         | Err e => Err e
                         end
            end) ;;
  viterbi_decode Rplus Rleb 0%R soft msg_d tr None gp gs.
