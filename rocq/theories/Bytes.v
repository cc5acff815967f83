(** Little-endian byte access to linear memories, from the WebAssembly specification. *)
From Verif Require Export Base.
Local Open Scope Z_scope.

(** Read [n] bytes from address [a], least significant first. *)
Fixpoint le_read (f : Z -> Z) (a : Z) (n : nat) : Z :=
  match n with
  | O => 0
  | S n' => f a mod 256 + 256 * le_read f (a + 1) n'
  end.
(** Write the [n] low bytes of [z] at address [a]. *)
Definition le_write (f : Z -> Z) (a : Z) (n : nat) (z : Z) : Z -> Z :=
  fun i => if (a <=? i) && (i <? a + Z.of_nat n) then (z / 256 ^ (i - a)) mod 256 else f i.

(** Two's complement reading of a [w]-bit pattern, and back. *)
Definition signed (w : Z) (z : Z) : Z := if z <? 2 ^ (w - 1) then z else z - 2 ^ w.
Definition sign_extend (from to : Z) (z : Z) : Z := signed from (z mod 2 ^ from) mod 2 ^ to.

Lemma le_read_range f a n : 0 <= le_read f a n < 256 ^ Z.of_nat n.
Proof.
  revert a. induction n as [|n IH]; intros a; simpl.
  - rewrite Z.pow_0_r. lia.
  - specialize (IH (a + 1)). rewrite Nat2Z.inj_succ, Z.pow_succ_r by lia.
    assert (0 <= f a mod 256 < 256) by (apply Z.mod_pos_bound; lia). nia.
Qed.

Lemma le_read_ext f g a n :
  (forall i, a <= i < a + Z.of_nat n -> f i mod 256 = g i mod 256) -> le_read f a n = le_read g a n.
Proof.
  revert a. induction n as [|n IH]; intros a E; [reflexivity|]. simpl.
  rewrite (E a) by lia. rewrite (IH (a + 1)); [reflexivity|]. intros i I. apply E. lia.
Qed.

Lemma le_read_digits f a n z :
  (forall i, a <= i < a + Z.of_nat n -> f i mod 256 = (z / 256 ^ (i - a)) mod 256) ->
  le_read f a n = z mod 256 ^ Z.of_nat n.
Proof.
  revert a z. induction n as [|n IH]; intros a z E.
  - simpl. rewrite Z.pow_0_r, Z.mod_1_r. reflexivity.
  - simpl. rewrite (IH (a + 1) (z / 256)).
    + rewrite (E a) by lia. rewrite Z.sub_diag, Z.pow_0_r, Z.div_1_r.
      rewrite Nat2Z.inj_succ, Z.pow_succ_r by lia.
      rewrite (Z.rem_mul_r z 256 (256 ^ Z.of_nat n)); try lia.
    + intros i I. rewrite (E i) by lia.
      replace (i - a) with (Z.succ (i - (a + 1))) by lia.
      rewrite Z.pow_succ_r by lia. rewrite Z.div_div; try lia.
Qed.

Lemma le_read_write f a n z : le_read (le_write f a n z) a n = z mod 256 ^ Z.of_nat n.
Proof.
  apply le_read_digits. intros i I. unfold le_write.
  destruct (Z.leb_spec a i), (Z.ltb_spec i (a + Z.of_nat n)); try lia. simpl. now rewrite Zmod_mod.
Qed.

Lemma le_read_write_other f a n z b k :
  (b + Z.of_nat k <= a \/ a + Z.of_nat n <= b) -> le_read (le_write f a n z) b k = le_read f b k.
Proof.
  intros D. apply le_read_ext. intros i I. unfold le_write.
  destruct (Z.leb_spec a i), (Z.ltb_spec i (a + Z.of_nat n)); try reflexivity. lia.
Qed.

Lemma le_read_write_small f a n z : 0 <= z < 256 ^ Z.of_nat n -> le_read (le_write f a n z) a n = z.
Proof. intros R. rewrite le_read_write. now apply Z.mod_small. Qed.
