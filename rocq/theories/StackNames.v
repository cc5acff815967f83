(** Names of the call-buffer library (C21): they can be read back, and the generated text
    assembles. *)
From Coq Require Import Ascii DecimalString DecimalNat.
From Verif Require Import StackLib.
Local Open Scope string_scope.
Local Open Scope list_scope.

(** ** Words separated by underscores *)
Fixpoint plain (s : string) : bool :=
  match s with "" => true | String c r => negb (Ascii.eqb c "_"%char) && plain r end.
Definition word (s : string) : Prop := plain s = true /\ s <> "".

Fixpoint first_word (s : string) : string * option string :=
  match s with
  | "" => ("", None)
  | String c r =>
      if Ascii.eqb c "_"%char then ("", Some r)
      else let (t, o) := first_word r in (String c t, o)
  end.
Lemma first_word_last x : plain x = true -> first_word x = (x, None).
Proof.
  induction x as [|c x IH]; [reflexivity|]. simpl. intros P. apply andb_true_iff in P. destruct P as [P1 P2].
  apply negb_true_iff in P1. now rewrite P1, (IH P2).
Qed.
Lemma first_word_sep x r : plain x = true -> first_word (x ++ "_" ++ r)%string = (x, Some r).
Proof.
  induction x as [|c x IH]; [reflexivity|]. simpl. intros P. apply andb_true_iff in P. destruct P as [P1 P2].
  apply negb_true_iff in P1. rewrite P1. simpl in IH. now rewrite (IH P2).
Qed.
Lemma join_cons x y r : join "_" (x :: y :: r) = (x ++ "_" ++ join "_" (y :: r))%string.
Proof. reflexivity. Qed.
Lemma join_inj l l' : Forall word l -> Forall word l' -> join "_" l = join "_" l' -> l = l'.
Proof.
  revert l'. induction l as [|x l IH]; intros l' F F' E.
  - destruct l' as [|y [|z l']]; [reflexivity| |]; inversion F' as [|? ? [_ N] ?]; subst; simpl in E.
    + congruence.
    + destruct y; [congruence|discriminate].
  - destruct l' as [|y l'].
    { exfalso. inversion F as [|? ? [_ N] ?]; subst. destruct x; [now apply N|]. destruct l; discriminate E. }
    inversion F as [|? ? [P N] F1]; subst. inversion F' as [|? ? [P' N'] F1']; subst.
    apply (f_equal first_word) in E.
    destruct l as [|x2 l], l' as [|y2 l']; rewrite ?join_cons in E;
      rewrite ?first_word_sep in E by assumption; cbn [join] in E; rewrite ?first_word_last in E by assumption;
      injection E; try discriminate; intros; subst; try reflexivity.
    f_equal. apply IH; assumption.
Qed.
Lemma join_app l l' : l <> [] -> l' <> [] -> join "_" (l ++ l') = (join "_" l ++ "_" ++ join "_" l')%string.
Proof.
  intros N N'. induction l as [|x l IH]; [congruence|]. destruct l as [|y l].
  - destruct l' as [|y l']; [congruence|]. reflexivity.
  - simpl app. rewrite !join_cons.
    change ((y :: l) ++ l') with (y :: l ++ l') in IH. rewrite IH by discriminate.
    clear. generalize (join "_" (y :: l)) (join "_" l'). intros a b. induction x as [|c x IHx]; [reflexivity|].
    simpl in *. now rewrite IHx.
Qed.

Lemma join_concat (ll : list (list string)) : Forall (fun l => l <> []) ll ->
  join "_" (map (join "_") ll) = join "_" (List.concat ll).
Proof.
  induction ll as [|l ll IH]; intros F; [reflexivity|]. inversion F as [|? ? N F']; subst.
  destruct ll as [|l' ll]; [simpl; now rewrite app_nil_r|].
  cbn [map]. rewrite join_cons. cbn [map] in IH. rewrite (IH F').
  change (List.concat (l :: l' :: ll)) with (l ++ List.concat (l' :: ll)). rewrite (join_app (l' := List.concat (l' :: ll)) N); [reflexivity|].
  inversion F' as [|? ? N' ?]; subst. destruct l'; [congruence|discriminate].
Qed.

(** ** Numbers *)
Lemma plain_app a b : plain (a ++ b)%string = plain a && plain b.
Proof. induction a as [|c a IH]; [reflexivity|]. simpl. rewrite IH. now rewrite andb_assoc. Qed.
Lemma digits_plain d : plain (NilEmpty.string_of_uint d) = true.
Proof. induction d; simpl; auto. Qed.
Lemma decimal_inj m n : decimal m = decimal n -> m = n.
Proof.
  unfold decimal. intros E. apply (f_equal NilEmpty.uint_of_string) in E. rewrite !NilEmpty.usu in E.
  injection E as E. now apply Unsigned.to_uint_inj.
Qed.
Lemma decimal_plain n : plain (decimal n) = true.
Proof. apply digits_plain. Qed.
Lemma decimal_nonempty n : decimal n <> "".
Proof.
  unfold decimal. intros E. apply (f_equal NilEmpty.uint_of_string) in E. rewrite NilEmpty.usu in E.
  injection E as E. pose proof (Unsigned.of_to n) as O. rewrite E in O. simpl in O. subst n. discriminate E.
Qed.
Lemma decimal_word n : word (decimal n).
Proof. split; [apply decimal_plain|apply decimal_nonempty]. Qed.
(** A number does not start with an [s]. *)
Lemma decimal_not_s n r : decimal n <> String "s" r.
Proof. unfold decimal. destruct (Nat.to_uint n); discriminate. Qed.

(** ** The words of a name *)
Definition op_words (o : libop) : list string :=
  match o with
  | LAlloc => ["allocate"] | LAllocTypes => ["allocate"; "types"]
  | LFree => ["free"; "values"] | LFreeTypes => ["free"; "types"]
  | LLoad s i => ["load"; (side_str s ++ decimal i)%string]
  | LStore s i => ["store"; (side_str s ++ decimal i)%string]
  | LStoreArgs => ["store"; "args"] | LStoreRets => ["store"; "rets"]
  end.
Lemma side_word s i : word (side_str s ++ decimal i)%string.
Proof.
  split; [rewrite plain_app, decimal_plain; now destruct s|destruct s; discriminate].
Qed.
Ltac words := repeat (apply side_word || (split; [reflexivity|discriminate]) || constructor).
Lemma op_words_word o : Forall word (op_words o).
Proof. destruct o; unfold op_words; words. Qed.
Lemma op_prefix_words o : op_prefix o = join "_" (op_words o).
Proof. destruct o; reflexivity. Qed.
Lemma op_words_nonnil o : op_words o <> [].
Proof. destruct o; discriminate. Qed.
Lemma side_str_inj s i s' i' : (side_str s ++ decimal i = side_str s' ++ decimal i')%string -> s = s' /\ i = i'.
Proof.
  destruct s, s'; simpl; intros E; try discriminate; injection E as E; apply decimal_inj in E; now subst.
Qed.
Lemma op_words_inj o o' : op_words o = op_words o' -> o = o'.
Proof.
  destruct o, o'; simpl; intros E; try discriminate; try reflexivity.
  all: try (injection E as E; apply side_str_inj in E as [-> ->]; reflexivity).
  all: destruct s; try discriminate; injection E as E; try (exfalso; symmetry in E; now apply decimal_not_s in E).
  all: exfalso; now apply decimal_not_s in E.
Qed.
Lemma op_words_no_ret o : ~ In "ret" (op_words o).
Proof.
  destruct o; simpl; intros I; repeat destruct I as [I|I]; try discriminate I; auto.
  all: destruct s; simpl in I; try discriminate I; injection I as I; now apply decimal_nonempty in I.
Qed.

Lemma split_first {A} (x : A) a a' b b' : ~ In x a -> ~ In x a' -> a ++ x :: b = a' ++ x :: b' -> a = a' /\ b = b'.
Proof.
  revert a'. induction a as [|y a IH]; intros [|y' a'] N N' E; simpl in *.
  - injection E as ->. auto.
  - injection E as <- E. exfalso. auto.
  - injection E as -> E. exfalso. auto.
  - injection E as -> E. destruct (IH a') as [-> ->]; auto.
Qed.

(** Types as words, for both spellings. *)
Definition as_words (t : valty) : list string :=
  match t with TRef FuncRef => ["ref"; "func"] | TRef ExternRef => ["ref"; "extern"] | _ => [as_str t] end.
Definition wat_words (t : valty) : list string := [wat_type t].
Lemma types_inj (f : valty -> list string) : f = as_words \/ f = wat_words ->
  forall l l', flat_map f l = flat_map f l' -> l = l'.
Proof.
  intros Hf. induction l as [|t l IH]; intros [|t' l'] E.
  - reflexivity.
  - exfalso. destruct Hf; subst f; destruct t' as [[]|[]]; discriminate.
  - exfalso. destruct Hf; subst f; destruct t as [[]|[]]; discriminate.
  - destruct Hf; subst f; destruct t as [[]|[]], t' as [[]|[]]; try discriminate; injection E as E; f_equal; auto.
Qed.
Lemma types_no_arg (f : valty -> list string) l : f = as_words \/ f = wat_words -> ~ In "arg" (flat_map f l).
Proof.
  intros Hf I. apply in_flat_map in I. destruct I as (t & _ & I).
  destruct Hf; subst f; destruct t as [[]|[]]; simpl in I; repeat destruct I as [I|I]; try discriminate I; auto.
Qed.
Lemma types_words (f : valty -> list string) l : f = as_words \/ f = wat_words -> Forall word (flat_map f l).
Proof.
  intros Hf. apply Forall_flat_map, Forall_forall. intros t _.
  destruct Hf; subst f; destruct t as [[]|[]]; cbv [as_words wat_words as_str wat_type]; words.
Qed.

Definition sig_words (f : valty -> list string) (ft : functy) (o : libop) : list string :=
  op_words o ++ "ret" :: flat_map f (ft_out ft) ++ "arg" :: flat_map f (ft_in ft).
Lemma sig_words_inj f ft ft' o o' : f = as_words \/ f = wat_words ->
  sig_words f ft o = sig_words f ft' o' -> ft = ft' /\ o = o'.
Proof.
  intros Hf E. apply split_first in E; try apply op_words_no_ret. destruct E as [Eo E].
  apply split_first in E; try now apply types_no_arg. destruct E as [E1 E2].
  apply (types_inj Hf) in E1. apply (types_inj Hf) in E2. apply op_words_inj in Eo.
  destruct ft, ft'; simpl in *; subst; auto.
Qed.
Lemma sig_words_word f ft o : f = as_words \/ f = wat_words -> Forall word (sig_words f ft o).
Proof.
  intros Hf. unfold sig_words. apply Forall_app. split; [apply op_words_word|].
  constructor; [split; [reflexivity|discriminate]|].
  apply Forall_app. split; [now apply types_words|].
  constructor; [split; [reflexivity|discriminate]|now apply types_words].
Qed.
Lemma as_words_join l x : join "_" (x :: map as_str l) = join "_" (x :: flat_map as_words l).
Proof.
  replace (x :: map as_str l) with (map (join "_") ([x] :: map as_words l)).
  - rewrite join_concat; [now rewrite flat_map_concat_map|].
    constructor; [discriminate|]. apply Forall_forall. intros w I. apply in_map_iff in I.
    destruct I as (t & <- & _). destruct t as [[]|[]]; discriminate.
  - simpl. f_equal. rewrite map_map. apply map_ext. intros [[]|[]]; reflexivity.
Qed.
Lemma op_name_words ft o : op_name ft o = join "_" (sig_words as_words ft o).
Proof.
  unfold op_name, sig_name, sig_words. rewrite !as_words_join, op_prefix_words.
  rewrite join_app; [|apply op_words_nonnil|discriminate].
  rewrite (app_comm_cons (flat_map _ _) _ "ret"), join_app by discriminate. reflexivity.
Qed.
(** C21, first half: the name determines the operation and the signature. *)
Lemma op_name_inj ft ft' o o' : op_name ft o = op_name ft' o' -> ft = ft' /\ o = o'.
Proof.
  rewrite !op_name_words. intros E. apply join_inj in E; try (apply sig_words_word; auto).
  now apply sig_words_inj in E; [|left].
Qed.

Lemma wat_words_map l : flat_map wat_words l = map wat_type l.
Proof. induction l; simpl; [|rewrite IHl]; reflexivity. Qed.
Lemma wat_join_empty l : is_empty (join "_" (map wat_type l)) = match l with [] => true | _ => false end.
Proof. destruct l as [|[[]|[]] [|? ?]]; reflexivity. Qed.
Lemma mangled_words ft : mangled_wat_name ft = join "_" ("ret" :: flat_map wat_words (ft_out ft) ++ "arg" :: flat_map wat_words (ft_in ft)).
Proof.
  unfold mangled_wat_name. rewrite !wat_join_empty, !wat_words_map.
  destruct (ft_out ft) as [|t o], (ft_in ft) as [|u i]; cbn [map app].
  - reflexivity.
  - reflexivity.
  - change ("ret" :: wat_type t :: map wat_type o ++ ["arg"]) with (["ret"] ++ ((wat_type t :: map wat_type o) ++ ["arg"])).
    rewrite join_app, join_app by discriminate. reflexivity.
  - change ("ret" :: wat_type t :: map wat_type o ++ "arg" :: wat_type u :: map wat_type i)
      with (["ret"] ++ ((wat_type t :: map wat_type o) ++ (["arg"] ++ wat_type u :: map wat_type i))).
    rewrite join_app, join_app, join_app by discriminate. reflexivity.
Qed.
Lemma lib_name_words ft o : lib_name ft o = join "_" (sig_words wat_words ft o).
Proof.
  unfold lib_name, sig_words. rewrite mangled_words, op_prefix_words.
  rewrite join_app; [reflexivity|apply op_words_nonnil|discriminate].
Qed.
Lemma lib_name_inj ft ft' o o' : lib_name ft o = lib_name ft' o' -> ft = ft' /\ o = o'.
Proof.
  rewrite !lib_name_words. intros E. apply join_inj in E; try (apply sig_words_word; auto).
  now apply sig_words_inj in E; [|right].
Qed.
Lemma types_agree l : existsb is_ref l = false -> flat_map wat_words l = flat_map as_words l.
Proof.
  induction l as [|t l IH]; [reflexivity|]. simpl. intros E. apply orb_false_iff in E. destruct E as [E1 E2].
  rewrite IH by exact E2. destruct t as [[]|]; [reflexivity..|discriminate].
Qed.
Lemma lib_name_op ft o : existsb is_ref (ft_in ft) = false -> existsb is_ref (ft_out ft) = false ->
  lib_name ft o = op_name ft o.
Proof.
  intros E1 E2. rewrite lib_name_words, op_name_words. unfold sig_words. now rewrite !types_agree.
Qed.

(** ** Identifiers *)
Definition fixed_words (i : wid) : list string :=
  match i with
  | IdGrow => ["grow"; "memory"] | IdTotal => ["total"; "used"; "memory"; "in"; "bytes"]
  | IdAllocate => ["stack"; "allocate"] | IdDeallocate => ["stack"; "deallocate"]
  | IdAllocateValues => ["stack"; "allocate"; "values"] | IdDeallocateValues => ["stack"; "deallocate"; "values"]
  | IdAllocateTypes => ["stack"; "allocate"; "types"] | IdDeallocateTypes => ["stack"; "deallocate"; "types"]
  | IdLoad => ["wastrumentation"; "memory"; "load"] | IdStore => ["wastrumentation"; "memory"; "store"]
  | IdStoreType => ["wastrumentation"; "stack"; "store"; "type"]
  | IdGen o r a => op_words o ++ ["ret"; decimal r; "arg"; decimal a]
  end.
Lemma wid_words i : wid_str i = join "_" (fixed_words i).
Proof.
  destruct i; try reflexivity. unfold wid_str, fixed_words. rewrite op_prefix_words.
  rewrite join_app; [reflexivity|apply op_words_nonnil|discriminate].
Qed.
Lemma fixed_words_word i : Forall word (fixed_words i).
Proof.
  destruct i; unfold fixed_words; try words.
  apply Forall_app. split; [apply op_words_word|]. repeat constructor; try discriminate; apply decimal_word.
Qed.
Lemma fixed_words_inj i j : fixed_words i = fixed_words j -> i = j.
Proof.
  destruct i, j; try discriminate; try reflexivity.
  all: try (destruct o; discriminate).
  cbn [fixed_words]. intros E. apply split_first in E; try apply op_words_no_ret.
  destruct E as [E1 E2]. apply op_words_inj in E1. injection E2 as E2 E3.
  apply decimal_inj in E2. apply decimal_inj in E3. now subst.
Qed.
Lemma wid_str_inj i j : wid_str i = wid_str j -> i = j.
Proof.
  rewrite !wid_words. intros E. apply join_inj in E; try apply fixed_words_word. now apply fixed_words_inj.
Qed.
Lemma wid_eqb_eq i j : wid_eqb i j = true <-> i = j.
Proof.
  unfold wid_eqb. rewrite String.eqb_eq. split; [apply wid_str_inj|now intros ->].
Qed.
