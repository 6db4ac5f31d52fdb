(** /repo/src/bch.rs and the coded functions of /repo/src/cdma.rs.  Definitions only. *)
From Coq Require Import List Arith NArith.
From Verif Require Import Base IterModel Num LibModel PskModel CdmaModel.
Import ListNotations.

(** The crate reed-solomon 0.2, whose source is not part of the repository: a codec is any pair of
    functions; bytes are [N] below 256.
    [rs_encode ecc data] is [Encoder::new(ecc).encode(data)] (all bytes of the buffer);
    [rs_correct ecc msg] is [Decoder::new(ecc).correct(msg, None)], reduced to [.data()] of an [Ok].
    A panic of the crate itself (on messages over 255 bytes) cannot be expressed; bch.rs passes at
    most 12 bytes. *)
Record Codec : Type := {
  rs_encode : nat -> list N -> list N;
  rs_correct : nat -> list N -> option (list N)
}.

(** bch.rs:5-7. *)
Definition DAT_VALUE : nat := 7.
Definition ECC_VALUE : nat := 5.
Definition FRAME_VALUE : nat := DAT_VALUE + ECC_VALUE.

Section Bch.
Variable rs : Codec.

(** bch.rs:10-19. *)
Definition bch_stream_encode (data : Iter bool) : Iter bool :=
  iflat_map tt (pure_fn u8_to_bools)
    (iflat_map tt (pure_fn (fun chunk => rs_encode rs ECC_VALUE chunk)) (chunks DAT_VALUE (bools_to_u8s data))).

(** bch.rs:25-38: the closure. *)
Definition decode_frame (chunk : list N) : outcome (list N) :=
  match rs_correct rs ECC_VALUE chunk with
  | Some decoded => Ret decoded
  | None => let? n := usize_sub (length chunk) ECC_VALUE in Ret (firstn n chunk)
  end.

(** bch.rs:21-40. *)
Definition bch_stream_decode (data : Iter bool) : Iter bool :=
  iflat_map tt (pure_fn u8_to_bools)
    (iflat_map tt (fun _ chunk => let? decoded := decode_frame chunk in Ret (decoded, tt))
       (chunks FRAME_VALUE (bools_to_u8s data))).

Context {T : Type} `{Num T}.

(** cdma.rs:90-104. *)
Definition tx_coded_cdma_bpsk_signal (message : Iter bool) (sample_rate symbol_rate : nat) (carrier_freq : T)
  (key : list bool) : outcome (Iter T) :=
  tx_cdma_bpsk_signal (bch_stream_encode message) sample_rate symbol_rate carrier_freq key.

(** cdma.rs:109-123. *)
Definition rx_coded_cdma_bpsk_signal (signal : Iter T) (sample_rate symbol_rate : nat) (carrier_freq : T)
  (key : list bool) : outcome (Iter bool) :=
  let? bits := rx_cdma_bpsk_signal signal sample_rate symbol_rate carrier_freq key in
  Ret (bch_stream_decode bits).

End Bch.
