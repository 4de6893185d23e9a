(* Vocabulary of the link model theorems. *)
From Verif Require Import Base LinksModel.

(* the number of positions where two bit arrays differ *)
Definition bit_errors (a b : list Z) : Z := Z.of_nat (length (filter (fun p => negb (fst p =? snd p)) (combine a b))).

(* np.random.choice((0, 1), n) returns n bits, and every decoded frame consists of bits and is at least as long as the message *)
Definition sane {W Snr Sy Y G V} (m : link W Snr Sy Y G V) : Prop :=
  (forall w n, length (fst (l_choice m w n)) = n /\ bits (fst (l_choice m w n))) /\
  (forall w n msg decoded w', transmit m w n = Ok (msg, decoded, w') -> bits decoded /\ (n <= length decoded)%nat).

(* every single transmission, and every change of the SNR, ends (normally or with an exception) *)
Definition calls_end {W Snr Sy Y G V} (m : link W Snr Sy Y G V) : Prop :=
  (forall w n, transmit m w n <> Err OutOfFuel) /\ (forall w s, l_set_snr m w s <> Err OutOfFuel).

(* elementwise difference / sum *)
Definition map2 {A} (f : A -> A -> A) (a b : list A) : list A := map (fun p => f (fst p) (snd p)) (combine a b).

(* one iteration of iterative detection and decoding, from the decoder's a-priori values x: the decoder turns x
   into d, leaving x' in its argument; the detector gets the extrinsic part d - x', slice by slice, returns z and
   leaves [left] in its a-priori argument; the next a-priori values of the decoder are z - left. *)
Definition idd_round {A Y H} (sub : A -> A -> A) (detector : Y -> H -> list A -> res (list A * list A)) (decoder : list A -> res (list A * list A))
    (ys : list Y) (hs : list H) (b : nat) (x z next : list A) : Prop :=
  exists d x' left, decoder x = Ok (d, x') /\ length d = length x' /\ length z = length x /\ length left = length x /\
    (forall i, (i < length hs)%nat -> exists y h, nth_error ys i = Some y /\ nth_error hs i = Some h /\
       detector y h (slice (map2 sub d x') (i * b) ((i + 1) * b)) =
         Ok (slice z (i * b) ((i + 1) * b), slice left (i * b) ((i + 1) * b))) /\
    next = map2 sub z left.

(* consecutive transmissions of n bits, starting in w and ending in w': the messages and the decoded frames *)
Inductive transmissions {W Snr Sy Y G V} (m : link W Snr Sy Y G V) (n : nat) : W -> list (list Z * list Z) -> W -> Prop :=
| no_transmission w : transmissions m n w [] w
| one_more w msg decoded w1 l w2 : transmit m w n = Ok (msg, decoded, w1) -> transmissions m n w1 l w2 -> transmissions m n w ((msg, decoded) :: l) w2.
(* the bit errors of all these frames *)
Definition total_errors (l : list (list Z * list Z)) : Z := Zsum (map (fun t => bit_errors (fst t) (snd t)) l).

(* n coded bits fill whole symbol vectors of b bits when the code has rate p/q: c q / p is a multiple of b *)
Definition fits (b p q c : Z) : Prop := exists vectors, c * q = p * (vectors * b).

(* the transmissions made for the first SNRs of the list, one list per SNR: the SNR is set, then frames of n bits are sent *)
Inductive simulated {W Snr Sy Y G V} (m : link W Snr Sy Y G V) (n : nat) : W -> list Snr -> list (list (list Z * list Z)) -> Prop :=
| nothing_more w snrs : simulated m n w snrs []
| next_snr w s snrs w1 tr w2 runs : l_set_snr m w s = Ok w1 -> transmissions m n w1 tr w2 -> simulated m n w2 snrs runs ->
    simulated m n w (s :: snrs) (tr :: runs).
