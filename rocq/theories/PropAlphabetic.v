(** C42: the identifier generator. *)
From Verif Require Import Alphabetic.
Local Open Scope string_scope.

(** The number an identifier stands for: base 26, first letter least significant. *)
Fixpoint value_of (s : string) : N :=
  match s with
  | EmptyString => 0
  | String c s' => (N_of_ascii c - 97) + 26 * value_of s'
  end.
Definition lower (c : ascii) : Prop := (97 <= N_of_ascii c <= 122)%N.
Fixpoint all_lower (s : string) : Prop :=
  match s with EmptyString => True | String c s' => lower c /\ all_lower s' end.

Lemma size_div n : (n <> 0)%N -> N.size_nat (n / 26) < N.size_nat n.
Proof.
  intros Z.
  assert (Q : (n / 26 <= N.div2 n)%N).
  { rewrite N.div2_div. apply N.div_le_compat_l. lia. }
  assert (M : forall a b : N, (a <= b)%N -> N.size_nat a <= N.size_nat b).
  { intros a b L. destruct (N.eq_dec a 0) as [->|Za]; [cbn; lia|].
    assert (Zb : b <> 0%N) by lia.
    assert (E : forall x, N.size_nat x = N.to_nat (N.size x)).
    { intros [|p]; [reflexivity|]. cbn. induction p; cbn; lia. }
    rewrite !E. rewrite !N.size_log2 by assumption. apply N.log2_le_mono in L. lia. }
  apply M in Q. destruct n as [|[p|p|]]; cbn in *; lia.
Qed.

Lemma letters_spec fuel : forall n, N.size_nat n <= fuel ->
  exists s, letters fuel n = Some s /\ value_of s = n /\ all_lower s /\ (n <> 0%N -> s <> "").
Proof.
  induction fuel as [|fuel IH]; intros n L.
  - destruct n as [|p]; [|destruct p; cbn in L; lia]. exists "". cbn. tauto.
  - cbn [letters]. destruct (N.eqb_spec n 0) as [->|Z]; [exists ""; cbn; tauto|].
    assert (S := size_div Z).
    destruct (IH (n / 26)%N ltac:(lia)) as (s & -> & V & A & _).
    assert (R : (n mod 26 < 26)%N) by (apply N.mod_lt; lia).
    unfold letter. destruct (N.leb_spec (n mod 26) 158) as [_|]; [|lia].
    eexists. split; [reflexivity|].
    assert (E : N_of_ascii (ascii_of_N (97 + n mod 26)) = (97 + n mod 26)%N) by (apply N_ascii_embedding; lia).
    cbn [value_of all_lower]. unfold lower. rewrite E, V. assert (D := N.div_mod' n 26).
    repeat split; try assumption; [lia|lia|lia|discriminate].
Qed.

(** The generator always succeeds, yields a non-empty identifier of lower case letters, and
    two numbers with the same identifier are equal. *)
Theorem C42_unique : forall n1 n2 : N, exists s1 s2,
  to_alphabetic n1 = Some s1 /\ to_alphabetic n2 = Some s2 /\
  s1 <> "" /\ all_lower s1 /\ (s1 = s2 <-> n1 = n2).
Proof.
  assert (H : forall n, exists s, to_alphabetic n = Some s /\ value_of s = n /\ all_lower s /\ s <> "").
  { intros n. unfold to_alphabetic. destruct (N.eqb_spec n 0) as [->|Z].
    - exists "a". cbn. repeat split; try discriminate; unfold lower; cbn; lia.
    - destruct (@letters_spec _ n (le_n _)) as (s & E & V & A & NE). exists s. auto. }
  intros n1 n2. destruct (H n1) as (s1 & E1 & V1 & A1 & Z1), (H n2) as (s2 & E2 & V2 & _ & _).
  exists s1, s2. repeat split; try assumption; [congruence|]. intros ->. congruence.
Qed.

(** The documentation (util.rs L12-15) says that a value above 25 never starts with an "a".
    That is false, because the least significant letter comes first. *)
Theorem C42_first_letter_refuted : exists n s, (n > 25)%N /\ to_alphabetic n = Some (String "a" s).
Proof. exists 26%N, "b". split; [lia|reflexivity]. Qed.

(** *** Example: the values of the unit test, util.rs L49-60, and two larger ones. *)
Example ex_alphabetic :
  map to_alphabetic [0; 1; 2; 23; 24; 25; 26; 701; 1000000]%N
  = map Some ["a"; "b"; "c"; "x"; "y"; "z"; "ab"; "zab"; "ohxec"].
Proof. vm_compute. reflexivity. Qed.

Print Assumptions C42_unique.
Print Assumptions C42_first_letter_refuted.
