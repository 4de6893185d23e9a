(* Model of the shared LRU cache behind dec2bitarray / decimal2bitarray
   (/repo/commpy/utilities.py 31-55 and 58-86), with the caller's in-place writes.
   Arrays are mutable objects: the heap is a list of arrays and a reference is a position in it. *)
From Verif Require Import Base UtilModel.

Definition key := (Z * nat)%type.
Definition key_eqb (a b : key) : bool := (fst a =? fst b) && (snd a =? snd b)%nat.

Record cstate := { heap : list (list Z);            (* all arrays ever allocated *)
                   cache : list (key * nat);        (* lru_cache content, most recently used first *)
                   owned : list nat;                (* references handed out by dec2bitarray (copies) *)
                   shared : list nat }.             (* references handed out by decimal2bitarray *)

(* import time: empty cache *)
Definition cinit : cstate := {| heap := []; cache := []; owned := []; shared := [] |}.

Definition maxsize : nat := 128.

Fixpoint lookup (k : key) (c : list (key * nat)) : option nat :=
  match c with
  | [] => None
  | (k', r) :: c' => if key_eqb k k' then Some r else lookup k c'
  end.

Definition remove_key (k : key) (c : list (key * nat)) : list (key * nat) :=
  filter (fun kr => negb (key_eqb k (fst kr))) c.

(* utilities.py 58: @functools.lru_cache(maxsize=128, typed=False).  A hit returns the SAME array object
   and makes the entry most recent; a miss runs the body, stores the fresh array and evicts the least
   recently used entry when more than 128 are stored; an exception is propagated and not cached. *)
Definition cached_d2b (s : cstate) (n : Z) (w : nat) : res (nat * cstate) :=
  match lookup (n, w) (cache s) with
  | Some r => Ok (r, {| heap := heap s; cache := ((n, w), r) :: remove_key (n, w) (cache s);
                        owned := owned s; shared := shared s |})
  | None =>
      a <- decimal2bitarray n w ;;
      let r := length (heap s) in
      Ok (r, {| heap := heap s ++ [a]; cache := firstn maxsize (((n, w), r) :: cache s);
                owned := owned s; shared := shared s |})
  end.

(* what a caller can do between two conversions *)
Inductive event :=
| CallDec (n : Z) (w : nat)              (* dec2bitarray(n, w), n an int *)
| CallDecArr (ns : list Z) (w : nat)     (* dec2bitarray(ns, w), ns array-like *)
| CallD2B (n : Z) (w : nat)              (* decimal2bitarray(n, w) *)
| WriteOwned (r i : nat) (v : Z)         (* a[i] = v on an array returned by dec2bitarray *)
| WriteShared (r i : nat) (v : Z).       (* a[i] = v on an array returned by decimal2bitarray *)

Definition get_arr (s : cstate) (r : nat) : list Z := nth r (heap s) [].

(* utilities.py 52-55: one cached conversion per element, copied into the result array in order *)
Fixpoint dec_arr_loop (s : cstate) (ns : list Z) (w : nat) : res (list Z) * cstate :=
  match ns with
  | [] => (Ok [], s)
  | n :: ns' =>
      match cached_d2b s n w with
      | Err e => (Err e, s)
      | Ok (r, s1) =>
          let a := get_arr s1 r in
          match dec_arr_loop s1 ns' w with
          | (Ok l, s2) => (Ok (a ++ l), s2)
          | (Err e, s2) => (Err e, s2)
          end
      end
  end.

Definition alloc_owned (s : cstate) (a : list Z) : cstate :=
  {| heap := heap s ++ [a]; cache := cache s; owned := length (heap s) :: owned s; shared := shared s |}.

(* One event; the first component is the array content the call returns (None for writes). *)
Definition cstep (s : cstate) (e : event) : option (res (list Z)) * cstate :=
  match e with
  | CallDec n w =>                                         (* utilities.py 50-51, .copy() *)
      match cached_d2b s n w with
      | Ok (r, s1) => let a := get_arr s1 r in (Some (Ok a), alloc_owned s1 a)
      | Err x => (Some (Err x), s)
      end
  | CallDecArr ns w =>
      match dec_arr_loop s ns w with
      | (Ok a, s1) => (Some (Ok a), alloc_owned s1 a)
      | (Err x, s1) => (Some (Err x), s1)
      end
  | CallD2B n w =>
      match cached_d2b s n w with
      | Ok (r, s1) => (Some (Ok (get_arr s1 r)),
                       {| heap := heap s1; cache := cache s1; owned := owned s1; shared := r :: shared s1 |})
      | Err x => (Some (Err x), s)
      end
  | WriteOwned r i v =>
      (None, if existsb (Nat.eqb r) (owned s)
             then {| heap := upd (heap s) r (upd (get_arr s r) i v); cache := cache s; owned := owned s; shared := shared s |}
             else s)
  | WriteShared r i v =>
      (None, if existsb (Nat.eqb r) (shared s)
             then {| heap := upd (heap s) r (upd (get_arr s r) i v); cache := cache s; owned := owned s; shared := shared s |}
             else s)
  end.

Fixpoint crun (s : cstate) (h : list event) : cstate :=
  match h with [] => s | e :: h' => crun (snd (cstep s e)) h' end.

(* the history never writes into an array obtained from decimal2bitarray *)
Definition no_shared_write (h : list event) : Prop :=
  Forall (fun e => match e with WriteShared _ _ _ => False | _ => True end) h.
