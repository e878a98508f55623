(** Specification of base64 text through numbers: RFC 4648 section 5 without padding *)
From Coq Require Import String ZArith List Bool.
From Coq Require Import Init.Byte.
From Verif Require Import GoModel.
Import ListNotations.
Local Open Scope Z_scope.

Definition alphabet : bytes := list_byte_of_string "ABCDEFGHIJKLMNOPQRSTUVWXYZabcdefghijklmnopqrstuvwxyz0123456789-_".
(** the text of a list of digits to base 64, and the number it denotes *)
Definition digits (ds : list nat) : Prop := Forall (fun d => (d < 64)%nat) ds.
Definition text (ds : list nat) : bytes := map (fun d => nth d alphabet x00) ds.
Definition value64 (ds : list nat) : Z := fold_left (fun a d => a * 64 + Z.of_nat d) ds 0.
(** left-over bits: bits of the digits that do not belong to the n bytes *)
Definition spare (ds : list nat) (b : bytes) : Z := 6 * Z.of_nat (length ds) - 8 * Z.of_nat (length b).
(** a text without its line breaks *)
Definition unbroken (s : bytes) : bytes := filter (fun c => negb (byte_eqb c x0a || byte_eqb c x0d)) s.

(** hexadecimal text: digits to base 16, letters in either case *)
Definition hex_lower : bytes := list_byte_of_string "0123456789abcdef".
Definition hex_upper : bytes := list_byte_of_string "0123456789ABCDEF".
Definition hex_text (ds : list nat) (s : bytes) : Prop :=
  Forall2 (fun d c => nth_error hex_lower d = Some c \/ nth_error hex_upper d = Some c) ds s.
Definition value16 (ds : list nat) : Z := fold_left (fun a d => a * 16 + Z.of_nat d) ds 0.
