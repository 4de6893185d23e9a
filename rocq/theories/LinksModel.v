(* Model of /repo/commpy/links.py (link_performance, LinkModel, idd_decoder). *)
From Verif Require Import Base.

(* ------------------------------------------------------------------ chunk size *)

(* links.py 212-213 and 302-303: (Fraction(1, num_bits_symbol * nb_tx) * 1 / code_rate).denominator, code_rate = p/q > 0 *)
Definition divider (b p q : Z) : Z := b * p / Z.gcd q (b * p).
(* max(divider, send_chunk // divider * divider) *)
Definition round_chunk (b p q send_chunk : Z) : Z := let d := divider b p q in Z.max d (send_chunk / d * d).

(* fractions.Fraction.limit_denominator(max_denominator) of a positive fraction n/d (Python standard library, used in
   links.py 146, 210, 300): the loop on (p0, q0, p1, q1, n, d), then the choice between the two bounds *)
Fixpoint limit_loop (fuel : nat) (maxd p0 q0 p1 q1 n d : Z) : Z * Z * Z * Z :=
  match fuel with
  | O => (p0, q0, p1, q1)
  | S f =>
      let a := n / d in let q2 := q0 + a * q1 in
      if maxd <? q2 then (p0, q0, p1, q1) else limit_loop f maxd p1 q1 (p0 + a * p1) q2 d (n - a * d)
  end.
Definition limit_denominator (maxd num den : Z) : Z * Z :=
  if den <=? maxd then (num, den)
  else let '(p0, q0, p1, q1) := limit_loop 200 maxd 0 1 1 0 num den in
       let k := (maxd - q0) / q1 in
       let b1n := p0 + k * p1 in let b1d := q0 + k * q1 in
       (* abs(bound2 - self) <= abs(bound1 - self), bound2 = p1/q1 *)
       if Z.abs (p1 * den - num * q1) * b1d <=? Z.abs (b1n * den - num * b1d) * q1 then (p1, q1) else (b1n, b1d).

(* ------------------------------------------------------------------ transmissions *)

(* dst[a:b] = src for one-dimensional NumPy arrays: the shapes must agree, or src has one element *)
Definition assign_slice {V} (dst : list V) (a b : nat) (src : list V) : res (list V) :=
  let n := length (slice dst a b) in
  if (length src =? n)%nat then Ok (firstn a dst ++ src ++ skipn (a + n) dst)
  else match src with
       | [x] => Ok (firstn a dst ++ repeat x n ++ skipn (a + n) dst)
       | _ => Err ValueError
       end.

(* np.bitwise_xor(a, b).sum() with NumPy broadcasting of one-dimensional arrays *)
Definition xor_sum (a b : list Z) : res Z :=
  if (length a =? length b)%nat then Ok (Zsum (map (fun p => Z.lxor (fst p) (snd p)) (combine a b)))
  else match a, b with
       | _, [y] => Ok (Zsum (map (fun x => Z.lxor x y) a))
       | [x], _ => Ok (Zsum (map (fun y => Z.lxor x y) b))
       | _, _ => Err ValueError
       end.

Section Links.
(* W: everything the functions of the link model may read or change (random generator, channel object);
   Snr, Sy, Y, G, V: SNR values, symbols, received symbols (vectors), channel gains, received values. *)
Context {W Snr Sy Y G V : Type}.

(* links.py 138-153.  The functions are arbitrary and may raise.  l_decoder: the decoder function called with one
   or with six arguments, links.py 245-250 and 330-337, followed by .astype(int). *)
Record link := {
  num_bits_symbol : nat; nb_tx : nat;
  is_mimo : bool;                                               (* isinstance(self.channel, MIMOFlatChannel) *)
  l_set_snr : W -> Snr -> res W;                                (* self.channel.set_SNR_dB(SNRs[id_SNR], float(code_rate), self.Es) *)
  l_choice : W -> nat -> list Z * W;                            (* np.random.choice((0, 1), n) *)
  l_modulate : W -> list Z -> res (list Sy * W);
  l_propagate : W -> list Sy -> res (list Y * list G * W);      (* channel_output, self.channel.channel_gains *)
  l_receive : W -> list Y -> list G -> res (list V);            (* self.receive on the whole output *)
  l_receive1 : W -> Y -> G -> res (list V);                     (* self.receive on one received vector *)
  l_decoder : W -> list Y -> list G -> list V -> nat -> res (list Z * W);
  l_received_len : Z -> nat;                                    (* int(math.ceil(len(msg) / float(self.rate))) *)
  l_empty : nat -> V                                            (* content of np.empty *)
}.

(* links.py 235-240 and 321-326 *)
Definition receive_mimo (m : link) (w : W) (out : list Y) (gains : list G) (len : Z) : res (list V) :=
  let receive_size := (nb_tx m * num_bits_symbol m)%nat in
  foldM (fun received i =>
      y <- py_get out (Z.of_nat i) ;;
      h <- py_get gains (Z.of_nat i) ;;
      r <- l_receive1 m w y h ;;
      assign_slice received (receive_size * i) (receive_size * (i + 1)) r)
    (seq 0 (length out)) (map (l_empty m) (seq 0 (l_received_len m len))).

(* links.py 229-250 and 314-337: one transmission of n random bits: the message, the decoded bits *)
Definition transmit (m : link) (w : W) (n : nat) : res (list Z * list Z * W) :=
  let '(msg, w) := l_choice m w n in
  sw <- l_modulate m w msg ;; let '(symbs, w) := sw in
  p <- l_propagate m w symbs ;; let '(out, gains, w) := p in
  received <- (if is_mimo m then receive_mimo m w out gains (Z.of_nat (length msg)) else l_receive m w out gains) ;;
  d <- l_decoder m w out gains received (nb_tx m * num_bits_symbol m) ;; let '(decoded, w) := d in
  Ok (msg, decoded, w).

(* ------------------------------------------------------------------ LinkModel.link_performance *)

(* links.py 313-338: the while loop (fuel: see the termination theorem); returns (bit_err, bit_send) *)
Fixpoint send_loop (fuel : nat) (m : link) (send_max err_min chunk bit_send bit_err : Z) (w : W) : res (Z * Z * W) :=
  match fuel with
  | O => Err OutOfFuel
  | S f =>
      if (bit_send <? send_max) && (bit_err <? err_min) then
        t <- transmit m w (Z.to_nat chunk) ;; let '(msg, decoded, w) := t in
        e <- xor_sum msg (firstn (length msg) decoded) ;;
        send_loop f m send_max err_min chunk (bit_send + chunk) (bit_err + e) w
      else Ok (bit_err, bit_send, w)
  end.

(* links.py 309-341: one entry per SNR; Some (e, s) is the float e / s, None is the initial 0.0 *)
Fixpoint snr_loop (fuel : nat) (m : link) (send_max err_min chunk : Z) (w : W) (snrs : list Snr) : res (list (option (Z * Z))) :=
  match snrs with
  | [] => Ok []
  | s :: rest =>
      w <- l_set_snr m w s ;;
      r <- send_loop fuel m send_max err_min chunk 0 0 w ;; let '(bit_err, bit_send, w) := r in
      if bit_send =? 0 then Err ZeroDivisionError else
      if bit_err <? err_min then Ok (Some (bit_err, bit_send) :: repeat None (length rest))
      else bers <- snr_loop fuel m send_max err_min chunk w rest ;; Ok (Some (bit_err, bit_send) :: bers)
  end.

(* links.py 269-342; send_chunk = None: send_chunk = err_min; code_rate = p/q *)
Definition link_performance (fuel : nat) (m : link) (w : W) (snrs : list Snr) (send_max err_min : Z) (send_chunk : option Z) (p q : Z)
    : res (list (option (Z * Z))) :=
  let chunk := round_chunk (Z.of_nat (num_bits_symbol m) * Z.of_nat (nb_tx m)) p q (match send_chunk with Some c => c | None => err_min end) in
  snr_loop fuel m send_max err_min chunk w snrs.

(* ------------------------------------------------------------------ LinkModel.link_performance_full_metrics *)

(* links.py 252-256: the errors of every chunk *)
Definition chunk_errors (chunk ncps : nat) (msg decoded : list Z) : res (list Z) :=
  mapM (fun i => xor_sum (slice msg (chunk * i) (chunk * (i + 1))) (slice decoded (chunk * i) (chunk * (i + 1)))) (seq 0 ncps).

(* links.py 225-259: "for id_tx in range(tx_max)"; n is the number of remaining transmissions, tx the rows
   (bit_err, chunk_loss, chunk_count) of the transmissions made so far *)
Fixpoint tx_loop (n : nat) (m : link) (err_min : Z) (chunk ncps : nat) (stop : bool) (tx : list (Z * Z * Z)) (w : W) : res (list (Z * Z * Z) * W) :=
  match n with
  | O => Ok (tx, w)
  | S n' =>
      if stop && (err_min <? Zsum (map (fun r => fst (fst r)) tx)) then Ok (tx, w)
      else
        t <- transmit m w (chunk * ncps) ;; let '(msg, decoded, w) := t in
        es <- chunk_errors chunk ncps msg decoded ;;
        let row := (Zsum es, Zsum (map (fun e => if 0 <? e then 1 else 0) es), Z.of_nat ncps) in
        tx_loop n' m err_min chunk ncps stop (tx ++ [row]) w
  end.

(* the row of an array of length tx_max that starts with l and is 0 afterwards *)
Definition pad_row (tx_max : nat) (l : list Z) : list Z := l ++ repeat 0 (tx_max - length l).

(* one SNR: the BER as the quotient of two integers (0/0 is nan), and the rows of BEs, CEs, NCs *)
Record metrics := { BER : option (Z * Z); BE : list Z; CE : list Z; NC : list Z }.

(* links.py 219-265 *)
Fixpoint snr_loop_full (m : link) (tx_max : nat) (err_min : Z) (chunk ncps : nat) (stop : bool) (w : W) (snrs : list Snr) : res (list metrics) :=
  match snrs with
  | [] => Ok []
  | s :: rest =>
      w <- l_set_snr m w s ;;
      t <- tx_loop tx_max m err_min chunk ncps stop [] w ;; let '(tx, w) := t in
      let bit_err := pad_row tx_max (map (fun r => fst (fst r)) tx) in
      let r := {| BER := Some (Zsum bit_err, Z.of_nat (length tx) * Z.of_nat chunk); BE := bit_err;
                  CE := map (fun e => if 0 <? e then 1 else 0) bit_err; NC := pad_row tx_max (map snd tx) |} in
      let zero := {| BER := None; BE := repeat 0 tx_max; CE := repeat 0 tx_max; NC := repeat 0 tx_max |} in
      if Zsum bit_err <? err_min then Ok (r :: repeat zero (length rest))
      else rs <- snr_loop_full m tx_max err_min chunk ncps stop w rest ;; Ok (r :: rs)
  end.

(* links.py 155-267 *)
Definition link_performance_full_metrics (m : link) (w : W) (snrs : list Snr) (tx_max : nat) (err_min : Z) (send_chunk : option Z) (p q : Z)
    (ncps : nat) (stop : bool) : res (list metrics) :=
  let chunk := round_chunk (Z.of_nat (num_bits_symbol m) * Z.of_nat (nb_tx m)) p q (match send_chunk with Some c => c | None => err_min end) in
  snr_loop_full m tx_max err_min (Z.to_nat chunk) ncps stop w snrs.
End Links.
Arguments link : clear implicits.

(* links.py 29-63: "if not send_chunk: send_chunk = err_min" (so 0 counts as not given), then the method *)
Definition link_performance_function {W Snr Sy Y G V} (fuel : nat) (m : link W Snr Sy Y G V) (w : W) (snrs : list Snr) (send_max err_min : Z)
    (send_chunk : option Z) (p q : Z) : res (list (option (Z * Z))) :=
  let send_chunk := match send_chunk with Some c => if c =? 0 then Some err_min else Some c | None => Some err_min end in
  link_performance fuel m w snrs send_max err_min send_chunk p q.

(* links.py 209-213 and 299-303: code_rate is a Fraction p/q (lowest terms) or a float, whose exact value is num/den in lowest terms
   (fractions.Fraction(float)).  m p q: the link model whose set_SNR_dB gets the rate p/q.  A rate of 0 is a division by zero.
   Simplification: rates are not negative. *)
Inductive rate := RFraction (p q : Z) | RFloat (num den : Z).
Definition rate_used (r : rate) : Z * Z := match r with RFraction p q => (p, q) | RFloat n d => limit_denominator 100 n d end.
Definition link_performance_rate {W Snr Sy Y G V} (fuel : nat) (m : Z -> Z -> link W Snr Sy Y G V) (w : W) (snrs : list Snr) (send_max err_min : Z)
    (send_chunk : option Z) (r : rate) : res (list (option (Z * Z))) :=
  let '(p, q) := rate_used r in if p =? 0 then Err ZeroDivisionError else link_performance fuel (m p q) w snrs send_max err_min send_chunk p q.
Definition full_metrics_rate {W Snr Sy Y G V} (m : Z -> Z -> link W Snr Sy Y G V) (w : W) (snrs : list Snr) (tx_max : nat) (err_min : Z)
    (send_chunk : option Z) (r : rate) (ncps : nat) (stop : bool) : res (list metrics) :=
  let '(p, q) := rate_used r in if p =? 0 then Err ZeroDivisionError else link_performance_full_metrics (m p q) w snrs tx_max err_min send_chunk p q ncps stop.

(* ------------------------------------------------------------------ idd_decoder *)

Section Idd.
(* A: log-likelihood ratios with + and -; Y, H: received vectors, channel matrices; B: decided bits.
   decoder and detector may modify their array argument in place: they return it too. *)
Context {A Y H B : Type} (add sub : A -> A -> A).
Context (detector : Y -> H -> list A -> res (list A * list A)).   (* result, content of the a_priori argument afterwards *)
Context (decoder : list A -> res (list A * list A)).              (* result, content of the argument afterwards *)
Context (decision : list A -> res (list B)).

(* elementwise operation of two arrays of the same shape (NumPy broadcasting of other shapes: not modelled) *)
Definition zipw (f : A -> A -> A) (a b : list A) : res (list A) :=
  if (length a =? length b)%nat then Ok (map (fun p => f (fst p) (snd p)) (combine a b)) else Err ValueError.

(* links.py 400-403: the vectors of one iteration; a slice of a_priori_detector is a view *)
Definition detect_all (ys : list Y) (hs : list H) (bits_per_send : nat) (apr apt : list A) : res (list A * list A) :=
  foldM (fun st i =>
      let '(apr, apt) := st in
      y <- py_get ys (Z.of_nat i) ;;
      h <- py_get hs (Z.of_nat i) ;;
      let a := (i * bits_per_send)%nat in let b := ((i + 1) * bits_per_send)%nat in
      r <- detector y h (slice apt a b) ;; let '(d, view) := r in
      apt' <- assign_slice apt a b view ;;
      apr' <- assign_slice apr a b d ;;
      Ok (apr', apt')) (seq 0 (length hs)) (apr, apt).

(* links.py 398-404: one iteration of the loop; state: a_priori_decoder, a_priori_detector (None: not yet bound) *)
Definition idd_step (ys : list Y) (hs : list H) (bits_per_send : nat) (st : list A * option (list A)) : res (list A * option (list A)) :=
  let '(apr, _) := st in
  r <- decoder apr ;; let '(d, apr) := r in
  apt <- zipw sub d apr ;;
  r <- detect_all ys hs bits_per_send apr apt ;; let '(apr, apt) := r in
  apr <- zipw sub apr apt ;;
  Ok (apr, Some apt).

(* links.py 395-405: decode(y, h, ..., a_priori, bits_per_send); returns the result and the content of the
   caller's a_priori afterwards.  a_priori_decoder = a_priori.copy() is a fresh array, so in-place changes of
   a_priori_decoder do not reach the caller. *)
Definition idd_decode (n_it : nat) (ys : list Y) (hs : list H) (a_priori : list A) (bits_per_send : nat) : res (list B * list A) :=
  st <- foldM (fun st _ => idd_step ys hs bits_per_send st) (seq 0 n_it) (a_priori, None) ;;
  match st with
  | (_, None) => Err UnboundLocalError
  | (apr, Some apt) => s <- zipw add apr apt ;; d <- decision s ;; Ok (d, a_priori)
  end.
End Idd.
