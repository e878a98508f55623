(** The external library dusk-network/bn256 and SHA3-256: the groups G1, G2, GT with their pairing.

    The record [bn] collects what bls.go uses; [bn_ok] the laws the proofs rely on: G1, G2 and GT are
    cyclic of the same prime order q, the pairing is bilinear and not degenerate (all three stated
    through exponents of the generators), and encodings can be decoded.  Nothing is assumed about the
    hash function, about decoding of other byte strings, nor about the values that a failed
    G2.Unmarshal leaves behind. *)
From Coq Require Import String ZArith List Znumtheory.
From Verif Require Import GoModel Base64Model.
Import ListNotations.
Local Open Scope Z_scope.

Record bn : Type := mkBn {
  g1 : Type; g2 : Type; gt : Type;      (** the groups *)
  ord : Z;                              (** bn256.Order *)
  gen1 : g1;                            (** the point behind G1.ScalarBaseMult *)
  gen2 : g2;                            (** the point behind RandomG2 *)
  add1 : g1 -> g1 -> g1;                (** G1.Add *)
  mul1 : Z -> g1 -> g1;                 (** G1.ScalarMult *)
  add2 : g2 -> g2 -> g2;
  mul2 : Z -> g2 -> g2;
  addt : gt -> gt -> gt;                (** GT.Add *)
  expt : Z -> gt;                       (** powers of Pair(gen1, gen2) *)
  pair : g1 -> g2 -> gt;                (** Pair *)
  marshal1 : g1 -> bytes;               (** G1.Marshal *)
  unm1 : bytes -> option (g1 * bytes);  (** G1.Unmarshal: the element and the remaining bytes, or an error *)
  marshal2 : g2 -> bytes;
  unm2 : bytes -> option (g2 * bytes);
  marshalt : gt -> bytes;               (** GT.Marshal *)
  compress : g1 -> bytes;               (** G1.Compress *)
  decompress : bytes -> option g1;      (** Decompress *)
  (** Go values of type bn256.G2: elements of the group and those left by a failed Unmarshal,
      on which operations may do anything *)
  v2 : Type;
  emb2 : g2 -> v2;
  junk2 : bytes -> v2;                  (** left in the receiver when Unmarshal fails *)
  vadd2 : v2 -> v2 -> res v2;
  vmul2 : Z -> v2 -> res v2;
  vmarshal2 : v2 -> res bytes;
  vpair : g1 -> v2 -> res gt;
  rand_k : reader -> res Z;             (** the scalar drawn by RandomG2 *)
  sha3 : bytes -> bytes                 (** SHA3-256 *)
}.

(** bls.go:24-25, 31-32 *)
Definition g1Str : string := "00000000000000000000000000000000000000000000000000000000000000018fb501e34aa387f9aa6fecb86184dc21ee5b88d120b5b59e185cac6c5e089665".
Definition g2Str : string := "012ecca446ff6f3d4d03c76e9b5c752f28bc37b364cb05ac4a37eb32e1c32459708f25386f72c9462b81597d65ae2092c4b97792155dcdaad32b8a6dd41792534c2db10ef5233b0fe3962b9ee6a4bbc2b5bde01a54f3513d42df972e128f31bf12274e5747e8cafacc3716cc8699db79b22f0e4ff3c23e898f694420a3be3087a5".

Record bn_ok (B : bn) : Prop := mkBnOk {
  ord_prime : prime (ord B);
  cyc1 : forall P, exists a, P = mul1 B a (gen1 B);
  mul1_gen : forall k a, mul1 B k (mul1 B a (gen1 B)) = mul1 B (k * a) (gen1 B);
  add1_gen : forall a b, add1 B (mul1 B a (gen1 B)) (mul1 B b (gen1 B)) = mul1 B (a + b) (gen1 B);
  mul1_eq : forall a b, mul1 B a (gen1 B) = mul1 B b (gen1 B) <-> (ord B | a - b);
  cyc2 : forall P, exists a, P = mul2 B a (gen2 B);
  mul2_gen : forall k a, mul2 B k (mul2 B a (gen2 B)) = mul2 B (k * a) (gen2 B);
  add2_gen : forall a b, add2 B (mul2 B a (gen2 B)) (mul2 B b (gen2 B)) = mul2 B (a + b) (gen2 B);
  mul2_eq : forall a b, mul2 B a (gen2 B) = mul2 B b (gen2 B) <-> (ord B | a - b);
  mul1_1 : mul1 B 1 (gen1 B) = gen1 B;
  mul2_1 : mul2 B 1 (gen2 B) = gen2 B;
  pair_gen : forall a b, pair B (mul1 B a (gen1 B)) (mul2 B b (gen2 B)) = expt B (a * b);
  addt_exp : forall a b, addt B (expt B a) (expt B b) = expt B (a + b);
  expt_eq : forall a b, expt B a = expt B b <-> (ord B | a - b);
  unm1_marshal : forall P r, unm1 B (marshal1 B P ++ r) = Some (P, r);
  marshal1_len : forall P, length (marshal1 B P) = 64%nat;
  unm2_marshal : forall P r, unm2 B (marshal2 B P ++ r) = Some (P, r);
  marshalt_inj : forall x y, marshalt B x = marshalt B y -> x = y;
  marshalt_len : forall x, length (marshalt B x) = 384%nat;
  compress_len : forall P, length (compress B P) = 33%nat;
  decompress_compress : forall P, P <> mul1 B 0 (gen1 B) -> decompress B (compress B P) = Some P;
  vadd2_emb : forall P Q, vadd2 B (emb2 B P) (emb2 B Q) = Ok (emb2 B (add2 B P Q));
  vmul2_emb : forall k P, vmul2 B k (emb2 B P) = Ok (emb2 B (mul2 B k P));
  vmarshal2_emb : forall P, vmarshal2 B (emb2 B P) = Ok (marshal2 B P);
  vpair_emb : forall S P, vpair B S (emb2 B P) = Ok (pair B S P);
  rand_k_range : forall r x, rand_k B r = Ok x -> 0 < x < ord B;
  g1Base_ok : exists b, hex_dec (list_byte_of_string g1Str) = Ok b /\ unm1 B b = Some (gen1 B, []);
  g2Base_ok : exists b, hex_dec (list_byte_of_string g2Str) = Ok b /\ unm2 B b = Some (gen2 B, [])
}.
