(** Model of encoding/base64.RawURLEncoding as used by bls/bls.go:582-592, and of
    encoding/hex.DecodeString as used by bls/bls.go:56-85.

    The encoder and decoder follow the algorithm of the Go standard library three bytes (four
    characters) at a time; its fast paths for blocks of four and eight characters, which give the
    same results, are left out.  The text of the error (CorruptInputError with an offset) is
    shortened. *)
From Coq Require Import String ZArith List Bool.
From Coq Require Import Init.Byte.
From Verif Require Import GoModel.
Import ListNotations.
Local Open Scope Z_scope.

(** The URL-safe alphabet A-Z a-z 0-9 - _ : character code of a six-bit value *)
Definition b64_char (v : Z) : byte :=
  Z_byte (if v <? 26 then 65 + v else if v <? 52 then 97 + (v - 26) else if v <? 62 then 48 + (v - 52) else if v =? 62 then 45 else 95).
(** decodeMap: six-bit value of a character, None (0xFF) for all others *)
Definition b64_val (c : byte) : option Z :=
  let z := byte_Z c in
  if (65 <=? z) && (z <=? 90) then Some (z - 65)
  else if (97 <=? z) && (z <=? 122) then Some (z - 97 + 26)
  else if (48 <=? z) && (z <=? 57) then Some (z - 48 + 52)
  else if z =? 45 then Some 62
  else if z =? 95 then Some 63
  else None.

(** Encoding.Encode without padding *)
Fixpoint b64_enc (src : bytes) : bytes :=
  match src with
  | a :: b :: c :: src' =>
      let val := byte_Z a * 65536 + byte_Z b * 256 + byte_Z c in
      b64_char (val / 262144 mod 64) :: b64_char (val / 4096 mod 64) :: b64_char (val / 64 mod 64) :: b64_char (val mod 64) :: b64_enc src'
  | [a; b] =>
      let val := byte_Z a * 65536 + byte_Z b * 256 in
      [b64_char (val / 262144 mod 64); b64_char (val / 4096 mod 64); b64_char (val / 64 mod 64)]
  | [a] =>
      let val := byte_Z a * 65536 in [b64_char (val / 262144 mod 64); b64_char (val / 4096 mod 64)]
  | [] => []
  end.

(** The bytes of a quantum of two, three or four six-bit values (decodeQuantum; non-strict mode does
    not look at the left-over low bits) *)
Definition b64_quantum (q : list Z) : bytes :=
  match q with
  | [x; y; z; w] => let val := x * 262144 + y * 4096 + z * 64 + w in [Z_byte (val / 65536); Z_byte (val / 256); Z_byte val]
  | [x; y; z] => let val := x * 262144 + y * 4096 + z * 64 in [Z_byte (val / 65536); Z_byte (val / 256)]
  | [x; y] => let val := x * 262144 + y * 4096 in [Z_byte (val / 65536)]
  | _ => []
  end.
Definition b64_skip (c : byte) : bool := (byte_Z c =? 10) || (byte_Z c =? 13).
(** Encoding.Decode without padding; [q] holds the six-bit values of the current quantum and
    [dst] the bytes written so far *)
Fixpoint b64_dec (q : list Z) (dst : bytes) (src : bytes) : res bytes :=
  match src with
  | [] => match q with [] => Ok dst | [_] => Err "illegal base64 data" | _ => Ok (dst ++ b64_quantum q) end
  | c :: src' =>
      if b64_skip c then b64_dec q dst src'
      else match b64_val c with
           | None => Err "illegal base64 data"
           | Some v => let q' := q ++ [v] in
               if Nat.eqb (length q') 4 then b64_dec [] (dst ++ b64_quantum q') src' else b64_dec q' dst src'
           end
  end.

(** bls.go:582-586 *)
Definition encodeToText (data : bytes) : bytes := b64_enc data.
(** bls.go:588-592; the partial result that accompanies an error is not used by the callers *)
Definition decodeText (data : bytes) : res bytes := b64_dec [] [] data.

(** hex.DecodeString *)
Definition hex_val (c : byte) : option Z :=
  let z := byte_Z c in
  if (48 <=? z) && (z <=? 57) then Some (z - 48)
  else if (97 <=? z) && (z <=? 102) then Some (z - 97 + 10)
  else if (65 <=? z) && (z <=? 70) then Some (z - 65 + 10)
  else None.
Fixpoint hex_dec (s : bytes) : res bytes :=
  match s with
  | [] => Ok []
  | [_] => Err "encoding/hex: odd length hex string"
  | a :: b :: s' =>
      match hex_val a, hex_val b with
      | Some x, Some y => let! r := hex_dec s' in Ok (Z_byte (x * 16 + y) :: r)
      | _, _ => Err "encoding/hex: invalid byte"
      end
  end.
