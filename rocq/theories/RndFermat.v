(** Fermat's little theorem for Z, from mathcomp *)
From mathcomp Require Import all_ssreflect all_fingroup all_solvable.
From Coq Require Import ZArith Znumtheory Lia.
Set Implicit Arguments.

Lemma zprime_prime (p : Z) : Znumtheory.prime p -> prime.prime (Z.to_nat p).
Proof.
  intros H. pose proof (prime_ge_2 p H) as G. apply/primeP. split; [apply/ltP; lia|]. intros d Hd. apply/orP.
  move/dvdnP: Hd => [k E]. rewrite -multE in E. assert (Ez : (p = Z.of_nat k * Z.of_nat d)%Z). { rewrite -Nat2Z.inj_mul -E. lia. }
  assert (D : (Z.of_nat d | p)%Z) by (exists (Z.of_nat k); exact Ez).
  destruct (prime_divisors p H _ D) as [X|[X|[X|X]]]; try lia.
  - left. apply/eqP. lia.
  - right. apply/eqP. lia.
Qed.
Lemma expn_pow a b : expn a b = Nat.pow a b.
Proof. induction b as [|b IH]; [reflexivity|]. rewrite expnS IH -multE. reflexivity. Qed.
Lemma fermat (p : Z) : Znumtheory.prime p -> (p <> 2)%Z -> ((2 ^ (p - 1)) mod p = 1)%Z.
Proof.
  intros H H2. pose proof (prime_ge_2 p H) as G. pose proof (zprime_prime H) as P.
  assert (C : coprime 2 (Z.to_nat p)).
  { rewrite coprime_sym prime_coprime //. apply/negP => D. apply dvdn_leq in D; [|by []]. move/leP: D => D. lia. }
  pose proof (Euler_exp_totient C) as E. rewrite totient_prime // in E.
  assert (X : Nat.modulo (Nat.pow 2 (Z.to_nat p).-1) (Z.to_nat p) = 1%nat).
  { rewrite -expn_pow. rewrite (modn_small (m := 1)) in E; [|apply/ltP; lia].
    pose proof (divn_eq (expn 2 (Z.to_nat p).-1) (Z.to_nat p)) as D. rewrite E in D.
    symmetry. apply (Nat.mod_unique _ _ (divn (expn 2 (Z.to_nat p).-1) (Z.to_nat p))); [lia|]. rewrite -multE -plusE in D. lia. }
  apply (f_equal Z.of_nat) in X. rewrite Nat2Z.inj_mod Nat2Z.inj_pow in X. rewrite Z2Nat.id in X; [|lia].
  replace (p - 1)%Z with (Z.of_nat (Z.to_nat p).-1) by lia. exact X.
Qed.
