(** Property C62 *)
From Coq Require Import String ZArith List Lia Bool Arith.
From Coq Require Import Init.Byte.
From Verif Require Import GoModel Base64Model SpecBase64 Base64Facts.
Import ListNotations.
Local Open Scope Z_scope.
Definition str (s : string) : bytes := list_byte_of_string s.

(** ** C62.  Text encoding is unpadded URL-safe base64. *)
Theorem C62_round_trip b : decodeText (encodeToText b) = Ok b.
Proof. exact (dec_enc b). Qed.
Print Assumptions C62_round_trip.
(** the text consists of the digits to base 64 of the number with big-endian bytes b, shifted by the left-over bits *)
Theorem C62_encoding b : exists ds, encodeToText b = text ds /\ digits ds /\ length ds = ((4 * length b + 2) / 3)%nat /\
  (spare ds b = 0 \/ spare ds b = 2 \/ spare ds b = 4) /\ value64 ds = be_Z b * 2 ^ spare ds b.
Proof. exists (enc_digits b). destruct (enc_text b) as [E D]. destruct (enc_len b) as [S L]. exact (conj E (conj D (conj L (conj S (enc_value b))))). Qed.
Print Assumptions C62_encoding.
(** these determine the text *)
Theorem C62_encoding_unique ds ds' : digits ds -> digits ds' -> length ds = length ds' -> value64 ds = value64 ds' -> ds = ds'.
Proof. exact (value64_inj ds ds'). Qed.
Print Assumptions C62_encoding_unique.
(** exactly which texts are decoded, and to what; line breaks do not matter, left-over bits are dropped *)
Theorem C62_decoding s b : decodeText s = Ok b <->
  exists ds, digits ds /\ unbroken s = text ds /\ (length ds mod 4 <> 1)%nat /\ length b = (6 * length ds / 8)%nat /\ be_Z b = value64 ds / 2 ^ spare ds b.
Proof. exact (dec_spec s b). Qed.
Print Assumptions C62_decoding.
Theorem C62_never_panics s : (exists b, decodeText s = Ok b) \/ (exists e, decodeText s = Err e).
Proof. pose proof (dec_total s). destruct (decodeText s); eauto. contradiction. Qed.
Print Assumptions C62_never_panics.
Theorem C62_line_breaks s : decodeText s = decodeText (unbroken s).
Proof. exact (dec_unbroken s [] []). Qed.
Print Assumptions C62_line_breaks.
(** decoding is injective on texts without line breaks and left-over bits *)
Theorem C62_injective s s' b : unbroken s = s -> unbroken s' = s' -> (length s mod 4 = 0)%nat -> decodeText s = Ok b -> decodeText s' = Ok b -> s = s'.
Proof. exact (dec_inj s s' b). Qed.
Print Assumptions C62_injective.
(** but not otherwise: each byte string not of a length divisible by three has another text *)
Theorem C62_not_injective : (forall b, (length b mod 3 <> 0)%nat -> exists s, unbroken s = s /\ s <> encodeToText b /\ decodeText s = Ok b) /\
  (forall b, exists s, s <> encodeToText b /\ decodeText s = Ok b).
Proof. exact (conj other_text other_broken). Qed.
Print Assumptions C62_not_injective.
(** the base points are given in hexadecimal: exactly which texts are read, and as what *)
Theorem C62_hex s b : hex_dec s = Ok b <-> exists ds, hex_text ds s /\ length s = (2 * length b)%nat /\ be_Z b = value16 ds.
Proof. exact (hex_dec_spec s b). Qed.
Print Assumptions C62_hex.
Theorem C62_hex_never_panics s : (exists b, hex_dec s = Ok b) \/ (exists e, hex_dec s = Err e).
Proof. pose proof (hex_dec_errs s). destruct (hex_dec s); eauto. contradiction. Qed.
Print Assumptions C62_hex_never_panics.
Example C62_hex_ex : hex_dec (str "1bE0") = Ok [x1b; xe0] /\ hex_text [1; 11; 14; 0]%nat (str "1bE0") /\ value16 [1; 11; 14; 0]%nat = be_Z [x1b; xe0] /\
  hex_dec (str "1b0") = Err "encoding/hex: odd length hex string" /\ hex_dec (str "1g") = Err "encoding/hex: invalid byte".
Proof. repeat split; try (vm_compute; reflexivity). repeat (constructor; [left; reflexivity|]). constructor; [right; reflexivity|]. repeat (constructor; [left; reflexivity|]). constructor. Qed.
Example C62_ex : encodeToText (str "dusk?") = str "ZHVzaz8" /\ encodeToText [xfb; xff] = str "-_8" /\ decodeText (str "-_8") = Ok [xfb; xff] /\ decodeText (str "-_9") = Ok [xfb; xff] /\
  decodeText ([x2d; x0a; x0d] ++ str "_8") = Ok [xfb; xff] /\ decodeText (str "-_8=") = Err "illegal base64 data" /\ decodeText (str "-") = Err "illegal base64 data" /\ decodeText (str "+_8") = Err "illegal base64 data".
Proof. repeat split; vm_compute; reflexivity. Qed.
