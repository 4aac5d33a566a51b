(** bufio.Reader with the calls the JSON protocols make (Go 1.0: Buffered, Peek, ReadByte,
    UnreadByte, Read, ReadBytes/ReadString; buffer of 4096 bytes).  Unlike BufIO.v the whole
    buffer is kept, also the bytes read already and the bytes left over behind the unread ones:
    tsimple_json_protocol.go:433-451 slices a peeked buffer beyond its length. *)
From Coq Require Import ZArith List Bool Lia.
From Verif Require Import Base Transport BufIO.
Import ListNotations.
Open Scope Z_scope.

(** The buffer is [b_before ++ b_un ++ b_after] (4096 bytes); b.r is [length b_before] and b.w is
    [length (b_before ++ b_un)]. *)
Record breader : Type := MkB {
  b_before : bytes; b_un : bytes; b_after : bytes; b_err : option err; b_rt : rt
}.
Definition b_array (b : breader) : bytes := b_before b ++ b_un b ++ b_after b.

(** bufio.NewReader *)
Definition new_breader (r : rt) : breader := MkB [] [] (repeat 0 buf_size) None r.

Definition buffered (b : breader) : nat := length (b_un b).

(** fill: slide the unread bytes to the front, then one Read into the rest of the buffer. *)
Definition b_fill (b : breader) : breader :=
  let '(d, e, r') := tread (buf_size - length (b_un b)) (b_rt b) in
  MkB [] (b_un b ++ d) (skipn (length (b_un b) + length d) (b_array b))
      (match e with Some _ => e | None => b_err b end) r'.
(** readErr *)
Definition b_read_err (b : breader) : option err * breader :=
  (b_err b, MkB (b_before b) (b_un b) (b_after b) None (b_rt b)).
(** b.r += n *)
Definition b_advance (n : nat) (b : breader) : breader :=
  MkB (b_before b ++ firstn n (b_un b)) (skipn n (b_un b)) (b_after b) (b_err b) (b_rt b).

(** Peek(n), n at most 4096: the bytes and whether there was no error.  Every round of the loop
    takes an entry of the transport, fills the buffer or meets an error; so the fuel is enough. *)
Fixpoint b_peek_loop (fuel n : nat) (b : breader) : breader :=
  match fuel with
  | O => b
  | S f => if (length (b_un b) <? n)%nat then
             match b_err b with Some _ => b | None => b_peek_loop f n (b_fill b) end
           else b
  end.
Definition b_peek (n : nat) (b : breader) : bytes * bool * breader :=
  let b1 := b_peek_loop (S (S (length (b_rt b)))) n b in
  if (length (b_un b1) <? n)%nat then (b_un b1, false, snd (b_read_err b1))
  else (firstn n (b_un b1), true, b1).

(** ReadByte *)
Fixpoint b_byte_loop (fuel : nat) (b : breader) : breader :=
  match fuel with
  | O => b
  | S f => match b_un b, b_err b with
           | [], None => b_byte_loop f (b_fill b)
           | _, _ => b
           end
  end.
Definition b_byte (b : breader) : (Z + err) * breader :=
  let b1 := b_byte_loop (S (S (length (b_rt b)))) b in
  match b_un b1 with
  | c :: _ => (inl c, b_advance 1 b1)
  | [] => match b_read_err b1 with
          | (Some e, b2) => (inr e, b2)
          | (None, b2) => (inr EEof, b2)       (* not reached *)
          end
  end.
(** UnreadByte after a ReadByte that gave [c] *)
Definition b_unread (c : Z) (b : breader) : breader :=
  match b_un b with
  | [] => MkB [] [c] (skipn 1 (b_array b)) (b_err b) (b_rt b)
  | _ => MkB (firstn (length (b_before b) - 1) (b_before b)) (c :: b_un b) (b_after b) (b_err b) (b_rt b)
  end.

(** Read(p) with 0 < len(p) = n < 4096 *)
Definition b_read (n : nat) (b : breader) : bytes * option err * breader :=
  match b_un b with
  | _ :: _ => (firstn n (b_un b), None, b_advance n b)
  | [] =>
    match b_err b with
    | Some e => ([], Some e, snd (b_read_err b))
    | None =>
      let b1 := b_fill b in
      match b_un b1 with
      | _ :: _ => (firstn n (b_un b1), None, b_advance n b1)
      | [] => ([], b_err b1, snd (b_read_err b1))
      end
    end
  end.

(** The bytes up to and including the first [d]. *)
Fixpoint upto (d : Z) (s : bytes) : option bytes :=
  match s with
  | [] => None
  | c :: s' => if c =? d then Some [c] else option_map (cons c) (upto d s')
  end.
(** ReadBytes(d), ReadString(d): ReadSlice, collecting full buffers. *)
Fixpoint b_until_loop (fuel : nat) (d : Z) (acc : bytes) (b : breader) : bytes * option err * breader :=
  match fuel with
  | O => (acc, Some EEof, b)                  (* not reached *)
  | S f =>
    match upto d (b_un b) with
    | Some l => (acc ++ l, None, b_advance (length l) b)
    | None =>
      match b_err b with
      | Some e => (acc ++ b_un b, Some e, snd (b_read_err (b_advance (length (b_un b)) b)))
      | None =>
        if (buf_size <=? length (b_un b))%nat
        then b_until_loop f d (acc ++ b_un b) (b_advance (length (b_un b)) b)
        else b_until_loop f d acc (b_fill b)
      end
    end
  end.
Definition b_fuel (b : breader) : nat :=
  2 * (length (b_rt b) + length (concat (map fst (b_rt b)))) + 3.
Definition b_until (d : Z) (b : breader) : bytes * option err * breader :=
  b_until_loop (b_fuel b) d [] b.
