(** Property theorem C86: what the command-line tool of the static analysis writes. *)
From Coq Require Import Ascii DecimalString DecimalN NArith Permutation.
From Verif Require Import StaticTool NestingSpec NestingProofs PuritySpec PropPurity.
Local Open Scope string_scope.
Local Open Scope list_scope.

(** A reader of JSON arrays of natural numbers without blanks. *)
Definition digit (c : ascii) : option N :=
  let d := N_of_ascii c in if (N.leb 48 d && N.leb d 57)%bool then Some (d - 48)%N else None.
Fixpoint read_numbers (pending : option N) (s : string) : option (list N) :=
  match s with
  | EmptyString => None
  | String c s' =>
      if Ascii.eqb c "]" then match pending, s' with Some k, EmptyString => Some [k] | _, _ => None end
      else if Ascii.eqb c "," then match pending with Some k => option_map (cons k) (read_numbers None s') | None => None end
      else match digit c with
           | Some d => read_numbers (Some (10 * match pending with Some k => k | None => 0 end + d)%N) s'
           | None => None
           end
  end.
Definition read_json (s : string) : option (list N) :=
  match s with
  | String "[" (String "]" EmptyString) => Some []
  | String "[" s' => read_numbers None s'
  | _ => None
  end.

Lemma read_digits d : forall p s,
  read_numbers (Some (Npos p)) (NilEmpty.string_of_uint d ++ s) = read_numbers (Some (Npos (Pos.of_uint_acc d p))) s.
Proof.
  induction d as [|d IH|d IH|d IH|d IH|d IH|d IH|d IH|d IH|d IH|d IH]; intros p s; [reflexivity|..];
    cbn [NilEmpty.string_of_uint append read_numbers]; cbn [Ascii.eqb Bool.eqb];
    match goal with |- context[digit ?c] => let v := eval vm_compute in (digit c) in change (digit c) with v end; cbn iota;
    cbn [Pos.of_uint_acc]; rewrite <- IH; do 2 f_equal; lia.
Qed.
Lemma read_zero d : forall s, read_numbers (Some 0%N) (NilEmpty.string_of_uint d ++ s) = read_numbers (Some (N.of_uint d)) s.
Proof.
  induction d as [|d IH|d IH|d IH|d IH|d IH|d IH|d IH|d IH|d IH|d IH]; intros s; [reflexivity|..];
    cbn [NilEmpty.string_of_uint append read_numbers]; cbn [Ascii.eqb Bool.eqb];
    match goal with |- context[digit ?c] => let v := eval vm_compute in (digit c) in change (digit c) with v end; cbn iota;
    [exact (IH s)|match goal with |- read_numbers (Some (10 * 0 + N.pos ?q)%N) _ = _ => exact (read_digits d q s) end..].
Qed.
Lemma read_decimal k s : read_numbers None (decimal k ++ s) = read_numbers (Some k) s.
Proof.
  rewrite <- (DecimalN.Unsigned.of_to k) at 2. unfold decimal. generalize (N.to_uint k). intros [|d|d|d|d|d|d|d|d|d|d]; [reflexivity|..];
    cbn [NilZero.string_of_uint NilEmpty.string_of_uint append read_numbers]; cbn [Ascii.eqb Bool.eqb];
    match goal with |- context[digit ?c] => let v := eval vm_compute in (digit c) in change (digit c) with v end; cbn iota;
    [exact (read_zero d s)|match goal with |- read_numbers (Some (10 * 0 + N.pos ?q)%N) _ = _ => exact (read_digits d q s) end..].
Qed.
Lemma append_assoc s t u : ((s ++ t) ++ u = s ++ (t ++ u))%string.
Proof. induction s as [|c s IH]; [reflexivity|]. cbn. now rewrite IH. Qed.
Lemma read_list l : l <> [] -> read_numbers None (String.concat "," (map decimal l) ++ "]") = Some l.
Proof.
  induction l as [|k l IH]; [congruence|]. intros _. destruct l as [|k' l].
  - cbn [map String.concat]. rewrite read_decimal. reflexivity.
  - cbn [map] in *. change (String.concat "," (decimal k :: decimal k' :: map decimal l))
      with (decimal k ++ "," ++ String.concat "," (decimal k' :: map decimal l))%string.
    rewrite append_assoc, read_decimal. cbn [append read_numbers Ascii.eqb Bool.eqb].
    rewrite IH by discriminate. reflexivity.
Qed.
Lemma decimal_digit k : exists c s d, decimal k = String c s /\ digit c = Some d.
Proof. unfold decimal. destruct (N.to_uint k); cbn; do 3 eexists; (split; [reflexivity|vm_compute; reflexivity]). Qed.
(** What serde_json writes is read back as it was. *)
Lemma read_to_json l : read_json (to_json l) = Some l.
Proof.
  destruct l as [|k l]; [reflexivity|]. unfold to_json, read_json. cbn [append].
  pose proof (@read_list (k :: l) ltac:(discriminate)) as R. 
  destruct (decimal_digit k) as (c & s & d & Ed & Dg).
  assert (Hd : exists s', (String.concat "," (map decimal (k :: l)) ++ "]")%string = String c s').
  { destruct l as [|k' l]; cbn [map].
    - exists (s ++ "]")%string. cbn. now rewrite Ed.
    - exists (s ++ "," ++ String.concat "," (map decimal (k' :: l)) ++ "]")%string. cbn [map].
      change (String.concat "," (decimal k :: decimal k' :: map decimal l)) with (decimal k ++ "," ++ String.concat "," (decimal k' :: map decimal l))%string.
      rewrite Ed. cbn [append]. now rewrite append_assoc. }
  destruct Hd as (s' & Hd). rewrite Hd in *.
  destruct c as [[] [] [] [] [] [] [] []]; try exact R; discriminate Dg.
Qed.

(** The functions that the tool is to report: those pure by the least fixpoint of the rules (C33), with a body of at least so
    many instructions. *)
Definition to_report (m : module) (minimum_body : option N) (f : nat) : Prop :=
  (forall P, closed_under_rules m P -> P f) /\
  match minimum_body with
  | None => True
  | Some count => exists fn locals body, nth_error (md_funcs m) f = Some fn /\ fn_code fn = FPresent locals body /\
      (count <= N.of_nat (List.length body))%N
  end.

Lemma retain_spec m count l :
  (forall f, In f l -> exists fn locals body, nth_error (md_funcs m) f = Some fn /\ fn_code fn = FPresent locals body) -> NoDup l ->
  exists r, retain m count l = Some r /\ NoDup r /\
    forall f, In f r <-> In f l /\ exists fn locals body, nth_error (md_funcs m) f = Some fn /\ fn_code fn = FPresent locals body /\
      (count <= N.of_nat (List.length body))%N.
Proof.
  induction l as [|f l IH]; intros Pr ND.
  - exists []. split; [reflexivity|]. split; [constructor|]. intros f. cbn. tauto.
  - inversion ND as [|? ? Nf ND']; subst. destruct IH as (r & Er & Nr & Hr); [intros g Hg; apply Pr; now right|exact ND'|].
    destruct (Pr f) as (fn & locals & body & E1 & E2); [now left|]. cbn [retain]. unfold long_enough. rewrite E1, E2, Er. cbn [option_map].
    destruct (N.leb_spec count (N.of_nat (List.length body))) as [Le|Gt].
    + exists (f :: r). split; [reflexivity|]. split; [constructor; [rewrite Hr; tauto|exact Nr]|]. intros g. cbn [In]. rewrite Hr. split.
      * intros [<-|H]; [split; [now left|]; eauto 8|tauto].
      * intros [[<-|H] Q]; [now left|right; auto].
    + exists r. split; [reflexivity|]. split; [exact Nr|]. intros g. cbn [In]. rewrite Hr. split; [tauto|].
      intros [[<-|H] Q]; [exfalso|auto]. destruct Q as (fn' & l' & b' & Q1 & Q2 & Q3). rewrite E1 in Q1. injection Q1 as <-.
      rewrite E2 in Q2. injection Q2 as <- <-. lia.
Qed.
Lemma substring_all s : substring 0 (String.length s) s = s.
Proof. induction s as [|c s IH]; [reflexivity|]. cbn. now rewrite IH. Qed.
Lemma nodup_of_nat l : NoDup l -> NoDup (map N.of_nat l).
Proof. induction 1 as [|x l H ND IH]; cbn [map]; constructor; [|exact IH]. intros Hi. apply in_map_iff in Hi as (y & E & Hy). apply Nat2N.inj in E. now subst. Qed.

(** C86: on a program the analysis accepts, and when all of the text is written, the output is a JSON array of the indices of the functions to
    report, each once; the tool does not panic, whatever the minimum and the order of the hash set. *)
Theorem C86_report : forall infer m k ord write minimum_body,
  (forall f, same_length_oracle (infer f)) -> accepted infer m -> List.length (md_funcs m) < k ->
  (forall l, Permutation (ord l) l) -> (forall s, write s = Some (String.length s)) ->
  exists text results, tool_main k infer ord write m minimum_body = TWritten text /\ read_json text = Some results /\ NoDup results /\
    forall f, In (N.of_nat f) results <-> to_report m minimum_body f.
Proof.
  intros infer m k ord write minimum_body Orc Ac Hk Po Wr.
  destruct (@C31_rounds infer m k Orc Ac Hk) as (rounds & fs & E & _ & _).
  destruct (@C33_least_closed_set infer m k rounds fs Orc E) as (Least & Obeys).
  unfold tool_main. rewrite E. set (rs := ord (nodup Nat.eq_dec fs)).
  assert (Ir : forall f, In f rs <-> In f fs).
  { intros f. unfold rs. rewrite <- (nodup_In Nat.eq_dec fs f). split; apply Permutation_in; [apply Po|apply Permutation_sym, Po]. }
  assert (Nr : NoDup rs) by (eapply Permutation_NoDup; [apply Permutation_sym, Po|apply NoDup_nodup]).
  assert (Fin : forall l, NoDup l -> (forall f, In f l <-> to_report m minimum_body f) ->
    exists text results, match write (to_json (map N.of_nat l)) with None => TIoError | Some taken => TWritten (substring 0 taken (to_json (map N.of_nat l))) end = TWritten text /\
      read_json text = Some results /\ NoDup results /\ forall f, In (N.of_nat f) results <-> to_report m minimum_body f).
  { intros l Nl Hl. rewrite Wr, substring_all. eexists _, (map N.of_nat l). split; [reflexivity|]. split; [apply read_to_json|]. split; [now apply nodup_of_nat|].
    intros f. rewrite <- Hl, in_map_iff. split; [|eauto]. intros (g & Eg & Hg). apply Nat2N.inj in Eg. now subst. }
  destruct minimum_body as [count|].
  - destruct (@retain_spec m count rs) as (r & Er & Nr' & Hr); [|exact Nr|].
    { intros f Hf. apply Ir, Obeys in Hf as (fn & locals & code & H1 & H2 & _). eauto. }
    rewrite Er. apply Fin; [exact Nr'|]. intros f. rewrite Hr, Ir, Least. reflexivity.
  - apply Fin; [exact Nr|]. intros f. rewrite Ir, Least. unfold to_report. tauto.
Qed.
Print Assumptions C86_report.

(** Only one call of [write] is made: if it takes part of the text, the tool still succeeds and the output is no JSON. *)
Theorem C86_short_write_refuted : exists infer m k write text,
  (forall f, same_length_oracle (infer f)) /\ accepted infer m /\ List.length (md_funcs m) < k /\
  (forall s, s <> "" -> exists taken, write s = Some taken /\ 1 <= taken <= String.length s) /\
  tool_main k infer (fun l => l) write m None = TWritten text /\ read_json text = None.
Proof.
  exists ex_tys, mixed_module, 10, (fun s => Some (Nat.min 4 (String.length s))), "[0,1".
  split; [exact ex_tys_oracle|]. split; [exact ex_mixed_accepted|]. split; [vm_compute; lia|].
  split; [|split; vm_compute; reflexivity]. intros s Ns. exists (Nat.min 4 (String.length s)). split; [reflexivity|].
  destruct s as [|c s]; [congruence|]. cbn [String.length]. lia.
Qed.
Print Assumptions C86_short_write_refuted.

(** *** Example: all pure functions, and those with at least five instructions. *)
Example ex_report :
  tool_main 10 ex_tys (fun l => rev l) (fun s => Some (String.length s)) mixed_module None = TWritten "[2,1,0]" /\
  tool_main 10 ex_tys (fun l => rev l) (fun s => Some (String.length s)) mixed_module (Some 5%N) = TWritten "[2,1]" /\
  accepted ex_tys mixed_module.
Proof. split; [vm_compute; reflexivity|]. split; [vm_compute; reflexivity|exact ex_mixed_accepted]. Qed.
