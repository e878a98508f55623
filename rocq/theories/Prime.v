(** The order of the ristretto255 group, and a proof that it is prime
    (Pocklington certificates, checked by [vm_compute] and the kernel).
    Mathematics only: models no code. *)
From Coq Require Import ZArith Znumtheory Zpow_facts Lia List.
From Verif Require Import Fermat.
Import ListNotations.
Local Open Scope Z_scope.

(** l = 2^252 + 27742317777372353535851937790883648493, the modulus of
    [ristretto.Scalar] (external library bwesterb/go-ristretto). *)
Definition ell : Z := 2 ^ 252 + 27742317777372353535851937790883648493.

Lemma pow_mod_1 (b e p : Z) : 0 <= e -> 1 < p -> b mod p = 1 -> (b ^ e) mod p = 1.
Proof.
  intros He Hp Hb. rewrite Zpower_mod by lia. rewrite Hb.
  rewrite Z.pow_1_l by lia. apply Z.mod_small. lia.
Qed.

Lemma pocklington_step (n q r a : Z) :
  1 < n -> prime q -> n - 1 = q * r -> 0 <= r ->
  Zpow_mod a (n - 1) n = 1 ->
  Z.gcd (Zpow_mod a r n - 1) n = 1 ->
  forall p, prime p -> (p | n) -> (q | p - 1).
Proof.
  intros Hn Hq Hnr Hr Ha Hg p Hp Hpn.
  assert (Hp1 : 1 < p) by (destruct Hp; lia).
  assert (Hq1 : 1 < q) by (destruct Hq; lia).
  rewrite Zpow_mod_correct in Ha by lia.
  rewrite Zpow_mod_correct in Hg by lia.
  set (b := a ^ r) in *.
  assert (Hbq : (b ^ q) mod p = 1).
  { unfold b. rewrite <- Z.pow_mul_r by lia. rewrite Z.mul_comm, <- Hnr.
    destruct Hpn as [k Hk].
    rewrite (Z.div_mod (a ^ (n - 1)) n) by lia. rewrite Ha.
    rewrite Hk at 1.
    replace (k * p * (a ^ (n - 1) / n) + 1) with (1 + (k * (a ^ (n - 1) / n)) * p) by ring.
    rewrite Z_mod_plus_full. apply Z.mod_small; lia. }
  assert (Hpa : ~ (p | a)).
  { intros [k Hk]. destruct Hpn as [m Hm].
    assert (Hd : (p | a ^ (n - 1))).
    { exists (k * a ^ (n - 2)). replace (n - 1) with (Z.succ (n - 2)) by lia.
      rewrite Z.pow_succ_r by lia. rewrite Hk at 1. ring. }
    assert (H1 : (p | 1)).
    { rewrite <- Ha. rewrite Zmod_eq by lia.
      apply Z.divide_sub_r; [exact Hd|]. exists ((a ^ (n-1) / n) * m). rewrite <- Z.mul_assoc, <- Hm. reflexivity. }
    apply Z.divide_1_r_nonneg in H1; lia. }
  assert (Hbp : (b ^ (p - 1)) mod p = 1).
  { unfold b. rewrite <- Z.pow_mul_r by lia. rewrite Z.mul_comm.
    rewrite Z.pow_mul_r by lia. apply pow_mod_1; try lia. apply fermat_Z; assumption. }
  destruct (Zdivide_dec q (p - 1)) as [Hd|Hd]; [exact Hd|exfalso].
  assert (Hrel : rel_prime q (p - 1)) by (apply prime_rel_prime; assumption).
  destruct (rel_prime_bezout _ _ Hrel) as [u v Huv].
  set (u' := u mod (p - 1) + (p - 1)).
  assert (Hu' : 0 < u') by (unfold u'; pose proof (Z.mod_pos_bound u (p-1)); lia).
  assert (Hex : exists v', 0 <= v' /\ u' * q = 1 + v' * (p - 1)).
  { exists ((1 - u / (p - 1)) * q - v).
    assert (E : u' * q = 1 + ((1 - u / (p - 1)) * q - v) * (p - 1)).
    { unfold u'. pose proof (Z.div_mod u (p - 1)). nia. }
    split; [nia|exact E]. }
  destruct Hex as [v' [Hv' Euv]].
  assert (H1 : (b ^ (u' * q)) mod p = 1).
  { rewrite Z.mul_comm. rewrite Z.pow_mul_r by lia. apply pow_mod_1; lia. }
  rewrite Euv in H1. rewrite Z.pow_add_r in H1 by nia. rewrite Z.pow_1_r in H1.
  rewrite Z.mul_mod in H1 by lia.
  rewrite (Z.mul_comm v'), Z.pow_mul_r in H1 by lia.
  rewrite (pow_mod_1 (b ^ (p-1)) v' p) in H1 by lia.
  rewrite Z.mul_1_r, Z.mod_mod in H1 by lia.
  assert (Hpb : (p | b - 1)).
  { exists (b / p). rewrite (Z.div_mod b p) at 1 by lia. rewrite H1. ring. }
  assert (Hpb' : (p | b mod n - 1)).
  { rewrite Zmod_eq by lia. replace (b - b / n * n - 1) with ((b - 1) - b / n * n) by ring.
    apply Z.divide_sub_r; [exact Hpb|]. apply Z.divide_mul_r. exact Hpn. }
  assert (H2 : (p | 1)) by (rewrite <- Hg; apply Z.gcd_greatest; assumption).
  apply Z.divide_1_r_nonneg in H2; lia.
Qed.

Lemma prime_of_large_factors (n f : Z) :
  1 < n -> n < f * f -> 0 < f ->
  (forall p, prime p -> (p | n) -> (f | p - 1)) -> prime n.
Proof.
  intros Hn Hf Hf0 H.
  destruct (prime_dec n) as [Hp|Hp]; [exact Hp|exfalso].
  destruct (not_prime_divide n Hn Hp) as [d [Hd Hdn]].
  assert (Hall : forall m, 0 <= m -> 1 < m -> exists p, prime p /\ (p | m)).
  { intros m Hm. pattern m. apply Zlt_0_ind; [|exact Hm]. clear m Hm.
    intros m IH _ Hm. destruct (prime_dec m) as [Hpm|Hpm].
    - exists m. split; [exact Hpm|apply Z.divide_refl].
    - destruct (not_prime_divide m Hm Hpm) as [e [He Hem]].
      destruct (IH e) as [p [Hpp Hpe]]; try lia.
      exists p. split; [exact Hpp|eapply Z.divide_trans; eauto]. }
  destruct Hdn as [e He].
  assert (He1 : 1 < e) by nia.
  destruct (Hall d) as [p1 [Hp1 Hd1]]; try lia.
  destruct (Hall e) as [p2 [Hp2 Hd2]]; try lia.
  assert (Hp1n : (p1 | n)) by (eapply Z.divide_trans; [exact Hd1|]; exists e; lia).
  assert (Hp2n : (p2 | n)) by (eapply Z.divide_trans; [exact Hd2|]; exists d; lia).
  assert (P1 : 1 < p1) by (destruct Hp1; lia).
  assert (P2 : 1 < p2) by (destruct Hp2; lia).
  assert (L1 : f <= p1 - 1) by (apply Z.divide_pos_le; [lia|apply H; assumption]).
  assert (L2 : f <= p2 - 1) by (apply Z.divide_pos_le; [lia|apply H; assumption]).
  assert (D1 : p1 <= d) by (apply Z.divide_pos_le; [lia|assumption]).
  assert (D2 : p2 <= e) by (apply Z.divide_pos_le; [lia|assumption]).
  nia.
Qed.

Lemma pocklington1 (n q r a : Z) :
  1 < n -> prime q -> n - 1 = q * r -> 0 <= r -> n < q * q ->
  Zpow_mod a (n - 1) n = 1 -> Z.gcd (Zpow_mod a r n - 1) n = 1 -> prime n.
Proof.
  intros Hn Hq Hnr Hr Hqq Ha Hg. apply (prime_of_large_factors n q); try assumption.
  - destruct Hq; lia.
  - intros p Hp Hpn. eapply pocklington_step; eassumption.
Qed.

Lemma pocklington2 (n q1 q2 r1 r2 a : Z) :
  1 < n -> prime q1 -> prime q2 -> q1 <> q2 ->
  n - 1 = q1 * r1 -> 0 <= r1 -> n - 1 = q2 * r2 -> 0 <= r2 ->
  n < (q1 * q2) * (q1 * q2) ->
  Zpow_mod a (n - 1) n = 1 ->
  Z.gcd (Zpow_mod a r1 n - 1) n = 1 -> Z.gcd (Zpow_mod a r2 n - 1) n = 1 -> prime n.
Proof.
  intros Hn Hq1 Hq2 Hne E1 R1 E2 R2 Hf Ha G1 G2.
  assert (1 < q1) by (destruct Hq1; lia). assert (1 < q2) by (destruct Hq2; lia).
  apply (prime_of_large_factors n (q1 * q2)); try assumption; try nia.
  intros p Hp Hpn.
  assert (H1 : (q1 | p - 1)) by (eapply (pocklington_step n q1 r1 a); eassumption).
  assert (H2 : (q2 | p - 1)) by (eapply (pocklington_step n q2 r2 a); eassumption).
  destruct H1 as [k Hk].
  assert (Hrel : rel_prime q2 q1).
  { apply prime_rel_prime; [assumption|]. intros Hd.
    apply Hne. symmetry. apply prime_div_prime; assumption. }
  rewrite Hk in H2. rewrite Z.mul_comm in H2. apply Gauss in H2; [|assumption].
  destruct H2 as [k' Hk']. exists k'. rewrite Hk, Hk'. ring.
Qed.

(** Trial division for the small leaves of the certificate. *)
Fixpoint no_div (n : Z) (d : Z) (fuel : nat) : bool :=
  match fuel with
  | O => n <? d * d
  | S k => if n <? d * d then true
           else if n mod d =? 0 then false else no_div n (d + 1) k
  end.

Lemma no_div_ok (fuel : nat) : forall n d, 2 <= d -> no_div n d fuel = true ->
  (forall e, 2 <= e < d -> ~ (e | n)) -> forall e, 2 <= e -> e * e <= n -> ~ (e | n).
Proof.
  induction fuel as [|k IH]; intros n d Hd H Hlt e He Hee; cbn [no_div] in H.
  - apply Z.ltb_lt in H. apply Hlt. nia.
  - destruct (Z.ltb_spec n (d * d)) as [C|C].
    + apply Hlt. nia.
    + destruct (Z.eqb_spec (n mod d) 0) as [C0|C0]; [discriminate|].
      apply (IH n (d + 1)); try assumption; try lia.
      intros e' He'. destruct (Z.eq_dec e' d) as [->|Hne].
      * intros Hdv. apply C0. apply Z.mod_divide; [lia|assumption].
      * apply Hlt. lia.
Qed.

Lemma prime_small (n : Z) (fuel : nat) : 1 < n -> no_div n 2 fuel = true -> prime n.
Proof.
  intros Hn H. destruct (prime_dec n) as [Hp|Hp]; [exact Hp|exfalso].
  destruct (not_prime_divide n Hn Hp) as [d [Hd [e He]]].
  assert (Hall := no_div_ok fuel n 2 ltac:(lia) H ltac:(intros; lia)).
  destruct (Z.le_gt_cases d e) as [C|C].
  - apply (Hall d); [lia|nia|exists e; lia].
  - apply (Hall e); [nia|nia|exists d; lia].
Qed.

Local Ltac vmr := first [vm_compute; reflexivity | vm_compute; discriminate].

Lemma prime_531581 : prime 531581.
Proof. apply (prime_small _ 1000); vmr. Qed.
Lemma prime_1224481 : prime 1224481.
Proof. apply (prime_small _ 1500); vmr. Qed.
Lemma prime_a5 : prime 1257559732178653.
Proof.
  apply (pocklington2 _ 531581 1224481 (1257559732178652 / 531581) (1257559732178652 / 1224481) 2);
    try exact prime_531581; try exact prime_1224481; vmr.
Qed.
Lemma prime_a4 : prime 4434155615661930479.
Proof.
  apply (pocklington1 _ 1257559732178653 (4434155615661930478 / 1257559732178653) 2);
    try exact prime_a5; vmr.
Qed.
Lemma prime_a3 : prime 172054593956031949258510691.
Proof.
  apply (pocklington1 _ 4434155615661930479 (172054593956031949258510690 / 4434155615661930479) 2);
    try exact prime_a4; vmr.
Qed.
Lemma prime_a2 : prime 19757330305831588566944191468367130476339.
Proof.
  apply (pocklington1 _ 172054593956031949258510691
           (19757330305831588566944191468367130476338 / 172054593956031949258510691) 2);
    try exact prime_a3; vmr.
Qed.
Lemma prime_a1 : prime 276602624281642239937218680557139826668747.
Proof.
  apply (pocklington1 _ 19757330305831588566944191468367130476339
           (276602624281642239937218680557139826668746 / 19757330305831588566944191468367130476339) 2);
    try exact prime_a2; vmr.
Qed.

Theorem ell_prime : prime ell.
Proof.
  apply (pocklington1 _ 276602624281642239937218680557139826668747
           ((ell - 1) / 276602624281642239937218680557139826668747) 2);
    try exact prime_a1; vmr.
Qed.
