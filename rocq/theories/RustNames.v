(** Names in the library that is generated for Rust: every name has one meaning. *)
From Verif Require Import RustLib StackNames StackAsm StackOps InstrumentProofs.
Local Open Scope string_scope.
Local Open Scope list_scope.

(** ** What a name stands for *)
Inductive rname := NFixed (i : nat) | NGen (o : libop) (r a : nat) | NOp (ft : functy) (o : libop).
(** The functions of the boilerplate, split at the underscores. *)
Definition fixed_names : list (list string) :=
  [["wastrumentation"; "memory"; "load"]; ["wastrumentation"; "memory"; "store"];
   ["stack"; "allocate"; "types"]; ["stack"; "deallocate"; "types"];
   ["stack"; "allocate"; "values"]; ["stack"; "deallocate"; "values"];
   ["wastrumentation"; "stack"; "store"; "type"]; ["wastrumentation"; "stack"; "load"; "type"];
   ["wastrumentation"; "stack"; "load"; "i32"]; ["wastrumentation"; "stack"; "load"; "f32"];
   ["wastrumentation"; "stack"; "load"; "i64"]; ["wastrumentation"; "stack"; "load"; "f64"];
   ["wastrumentation"; "stack"; "store"; "i32"]; ["wastrumentation"; "stack"; "store"; "f32"];
   ["wastrumentation"; "stack"; "store"; "i64"]; ["wastrumentation"; "stack"; "store"; "f64"]].
(** The generic functions. *)
Definition gen_words (o : libop) : list string :=
  match o with LAllocTypes => ["allocate"; "signature"; "types"; "buffer"] | _ => op_words o end.
(** The words of a name. *)
Definition name_words (n : rname) : list string :=
  match n with
  | NFixed i => nth i fixed_names []
  | NGen o r a => gen_words o ++ ["ret"; decimal r; "arg"; decimal a]
  | NOp ft o => sig_words as_words ft o
  end.
(** The name. *)
Definition name_str (n : rname) : string := join "_" (name_words n).
(** There are 16 functions in the boilerplate. *)
Definition name_ok (n : rname) : Prop := match n with NFixed i => i < 16 | _ => True end.

Lemma gen_words_word o : Forall word (gen_words o).
Proof. destruct o; try apply (op_words_word _); unfold gen_words, op_words; words. Qed.
Lemma gen_words_no_ret o : ~ In "ret" (gen_words o).
Proof.
  destruct o; try (apply (op_words_no_ret _)).
  cbn [gen_words]. intros I. repeat destruct I as [I|I]; try discriminate I; auto.
Qed.
Lemma gen_words_inj o o' : gen_words o = gen_words o' -> o = o'.
Proof.
  destruct o, o'; try reflexivity; try discriminate; intros E;
    match goal with |- ?x = ?y => exact (op_words_inj x y E) end.
Qed.
Lemma name_words_word n : Forall word (name_words n).
Proof.
  destruct n as [i|o r a|ft o]; cbn [name_words].
  - do 16 (destruct i as [|i]; [cbn [nth fixed_names]; words|]). destruct i; constructor.
  - apply Forall_app. split; [apply gen_words_word|]. repeat constructor; try discriminate; apply decimal_word.
  - apply sig_words_word. now left.
Qed.
Lemma decimal_not_arg n : decimal n <> "arg".
Proof. unfold decimal. destruct (Nat.to_uint n); discriminate. Qed.
Lemma decimal_not_type n t : ~ In (decimal n) (as_words t).
Proof. unfold decimal. destruct (Nat.to_uint n), t as [[]|[]]; simpl; intros I; repeat destruct I as [I|I]; try discriminate I; auto. Qed.
Lemma name_words_inj n n' : name_ok n -> name_ok n' -> name_words n = name_words n' -> n = n'.
Proof.
  assert (G : forall o r a ft o', name_words (NGen o r a) <> name_words (NOp ft o')).
  { intros o r a ft o' E. cbn [name_words] in E. unfold sig_words in E. apply split_first in E; [|apply gen_words_no_ret|apply op_words_no_ret].
    destruct E as [_ E]. destruct (ft_out ft) as [|t l]; cbn [flat_map app] in E.
    - injection E as E _. now apply decimal_not_arg in E.
    - destruct (as_words t) as [|w ws] eqn:W; [destruct t as [[]|[]]; discriminate|]. cbn [app] in E. injection E as E _.
      apply (@decimal_not_type r t). rewrite W, E. now left. }
  assert (F : forall i, i < 16 -> ~ In "ret" (name_words (NFixed i))).
  { intros i Hi. cbn [name_words]. do 16 (destruct i as [|i]; [simpl; intros I; repeat destruct I as [I|I]; try discriminate I; auto|]). lia. }
  assert (R : forall n, match n with NFixed _ => False | _ => True end -> In "ret" (name_words n)).
  { intros [i|o r a|ft o] H; [destruct H| |]; cbn [name_words]; unfold sig_words; apply in_or_app; right; now left. }
  destruct n as [i|o r a|ft o], n' as [i'|o' r' a'|ft' o']; cbn [name_ok]; intros H H' E.
  - f_equal. assert (N : NoDup fixed_names).
    { assert (D : NoDup (map (join "_") fixed_names)) by (apply distinct_strs_NoDup; vm_compute; reflexivity).
      now apply NoDup_map_inv in D. }
    apply (proj1 (NoDup_nth fixed_names []) N); auto.
  - exfalso. apply (F i H). rewrite E. now apply R.
  - exfalso. apply (F i H). rewrite E. now apply R.
  - exfalso. apply (F i' H'). rewrite <- E. now apply R.
  - cbn [name_words] in E. apply split_first in E; try apply gen_words_no_ret. destruct E as [Eo E].
    apply gen_words_inj in Eo. injection E as E1 E2. apply decimal_inj in E1. apply decimal_inj in E2. now subst.
  - now apply G in E.
  - exfalso. apply (F i' H'). rewrite <- E. now apply R.
  - symmetry in E. now apply G in E.
  - cbn [name_words] in E. apply sig_words_inj in E; [|now left]. destruct E. now subst.
Qed.
Lemma name_str_inj n n' : name_ok n -> name_ok n' -> name_str n = name_str n' -> n = n'.
Proof. intros H H' E. apply join_inj in E; try apply name_words_word. now apply name_words_inj. Qed.

(** ** The names of the library *)
Definition gen_ops (r a : nat) : list libop :=
  [LAlloc] ++ map (LLoad SArg) (seq 0 a) ++ map (LLoad SRet) (seq 0 r)
  ++ map (LStore SArg) (seq 0 a) ++ map (LStore SRet) (seq 0 r) ++ [LFree; LStoreRets; LAllocTypes; LFreeTypes].
(** The generic functions for a pair of counts. *)
Definition gen_names (r a : nat) : list rname := map (fun o => NGen o r a) (gen_ops r a).
(** The functions for a signature. *)
Definition op_names (ft : functy) : list rname := map (NOp ft) (gen_ops (List.length (ft_out ft)) (List.length (ft_in ft))).
(** The functions for several signatures; each pair of counts, and each signature, once. *)
Fixpoint names_for (counts : list (nat * nat)) (done sigs : list functy) : list rname :=
  match sigs with
  | [] => []
  | ft :: rest =>
      (if existsb (count_eqb (ft_count ft)) counts then [] else gen_names (List.length (ft_out ft)) (List.length (ft_in ft)))
      ++ (if existsb (functy_eqb ft) done then [] else op_names ft)
      ++ names_for (ft_count ft :: counts) (ft :: done) rest
  end.
(** All functions of the library. *)
Definition lib_names (sigs : list functy) : list rname := map NFixed (seq 0 16) ++ names_for [] [] sigs.

Lemma count_words r a : count_name r a = join "_" ["ret"; decimal r; "arg"; decimal a].
Proof. reflexivity. Qed.
Lemma gen_str o r a : name_str (NGen o r a) = (join "_" (gen_words o) ++ "_" ++ count_name r a)%string.
Proof. unfold name_str. cbn [name_words]. rewrite join_app; [reflexivity|destruct o; discriminate|discriminate]. Qed.
Lemma op_str ft o : name_str (NOp ft o) = op_name ft o.
Proof. unfold name_str. cbn [name_words]. symmetry. apply op_name_words. Qed.
Lemma append_assoc a b c : ((a ++ b) ++ c)%string = (a ++ (b ++ c))%string.
Proof. induction a as [|x a IH]; [reflexivity|]. simpl. now rewrite IH. Qed.
Lemma load_str s n r a : name_str (NGen (LLoad s n) r a) = load_count_name s n r a.
Proof. rewrite gen_str. cbn [gen_words op_words join]. unfold load_count_name. now rewrite !append_assoc. Qed.
Lemma store_str s n r a : name_str (NGen (LStore s n) r a) = store_count_name s n r a.
Proof. rewrite gen_str. cbn [gen_words op_words join]. unfold store_count_name. now rewrite !append_assoc. Qed.

Lemma generic_names r a : map rf_name (rust_generic r a) = map name_str (gen_names r a).
Proof.
  unfold rust_generic, gen_names, gen_ops. rewrite !map_app, !map_map. cbn [rf_name].
  replace (map rf_name [rust_allocate_generic r a]) with [name_str (NGen LAlloc r a)]
    by (unfold rust_allocate_generic; destruct (Nat.eqb _ _); reflexivity).
  rewrite !(map_ext (fun n => name_str (NGen (LLoad _ n) r a)) (fun n => load_count_name _ n r a)) by (intros; apply load_str).
  rewrite !(map_ext (fun n => name_str (NGen (LStore _ n) r a)) (fun n => store_count_name _ n r a)) by (intros; apply store_str).
  do 5 f_equal. cbn [map]. rewrite !gen_str. unfold rust_free_generic. destruct (Nat.eqb _ _); reflexivity.
Qed.
Lemma special_names ft : map rf_name (rust_special ft) = map name_str (op_names ft).
Proof.
  unfold rust_special, op_names, gen_ops. rewrite !map_app, <- !enum_fst, !map_map. cbn [rf_name map].
  rewrite !op_str. f_equal. do 4 (apply f_equal2; [apply map_ext; intros; symmetry; apply op_str|]). reflexivity.
Qed.
Lemma lib_for_names sigs : forall counts done, map rf_name (rust_lib_for counts done sigs) = map name_str (names_for counts done sigs).
Proof.
  induction sigs as [|ft sigs IH]; intros counts done; [reflexivity|]. cbn [rust_lib_for names_for]. rewrite !map_app, IH.
  f_equal; [|f_equal].
  - destruct (existsb _ counts); [reflexivity|apply generic_names].
  - destruct (existsb _ done); [reflexivity|apply special_names].
Qed.
Lemma rust_lib_names sigs : map rf_name (rust_lib sigs) = map name_str (lib_names sigs).
Proof. unfold rust_lib, lib_names. rewrite !map_app, lib_for_names. f_equal. Qed.

Lemma count_eqb_iff c d : count_eqb c d = true <-> c = d.
Proof. destruct c, d. unfold count_eqb. cbn [fst snd]. rewrite andb_true_iff, !Nat.eqb_eq. split; [intros [-> ->]; reflexivity|now intros [= -> ->]]. Qed.
Lemma gen_ops_nodup r a : NoDup (gen_ops r a).
Proof.
  unfold gen_ops.
  repeat match goal with
  | |- NoDup (_ ++ _) => apply nodup_app
  | |- NoDup (map _ (seq _ _)) => apply nodup_map; [congruence|apply seq_NoDup]
  | |- NoDup [_; _; _; _] => repeat constructor; simpl; intros I; repeat destruct I as [I|I]; try discriminate I; auto
  | |- NoDup [_] => repeat constructor; simpl; tauto
  end.
  all: intros x I I'; repeat (apply in_app_or in I' as [I'|I']); simpl in I;
    repeat match goal with
    | H : In _ (map _ _) |- _ => apply in_map_iff in H; destruct H as (? & ? & ?); subst
    | H : _ \/ _ |- _ => destruct H
    | H : In _ [_; _; _; _] |- _ => simpl in H
    end; subst; try contradiction; try discriminate.
Qed.
Lemma names_for_in sigs : forall counts done n, In n (names_for counts done sigs) ->
  match n with
  | NFixed _ => False
  | NGen o r a => In (r, a) (map ft_count sigs) /\ ~ In (r, a) counts /\ In o (gen_ops r a)
  | NOp ft o => In ft sigs /\ ~ In ft done /\ In o (gen_ops (List.length (ft_out ft)) (List.length (ft_in ft)))
  end.
Proof.
  induction sigs as [|ft sigs IH]; intros counts done n H; [destruct H|]. cbn [names_for] in H.
  apply in_app_or in H as [H|H]; [|apply in_app_or in H as [H|H]].
  - destruct (existsb (count_eqb (ft_count ft)) counts) eqn:E; [destruct H|].
    apply in_map_iff in H. destruct H as (o & <- & H). split; [now left|]. split; [|exact H].
    intros C. apply (seen_in _ count_eqb_iff (ft_count ft)) in C. congruence.
  - destruct (existsb (functy_eqb ft) done) eqn:E; [destruct H|].
    apply in_map_iff in H. destruct H as (o & <- & H). split; [now left|]. split; [|exact H].
    intros C. apply (seen_in _ functy_eqb_iff ft) in C. congruence.
  - apply IH in H. destruct n as [i|o r a|ft' o]; [exact H| |]; simpl in *; intuition.
Qed.
Lemma names_for_nodup sigs : forall counts done, NoDup (names_for counts done sigs).
Proof.
  induction sigs as [|ft sigs IH]; intros counts done; [constructor|]. cbn [names_for].
  apply nodup_app; [| |].
  - destruct (existsb _ counts); [constructor|]. apply nodup_map; [congruence|apply gen_ops_nodup].
  - apply nodup_app; [|apply IH|].
    + destruct (existsb _ done); [constructor|]. apply nodup_map; [congruence|apply gen_ops_nodup].
    + intros x I I'. destruct (existsb _ done); [destruct I|]. apply in_map_iff in I. destruct I as (o & <- & _).
      apply names_for_in in I'. destruct I' as (_ & N & _). apply N. now left.
  - intros x I I'. destruct (existsb _ counts); [destruct I|]. apply in_map_iff in I. destruct I as (o & <- & _).
    apply in_app_or in I' as [I'|I'].
    + destruct (existsb _ done); [destruct I'|]. apply in_map_iff in I'. now destruct I' as (o' & E & _).
    + apply names_for_in in I'. destruct I' as (_ & N & _). apply N. now left.
Qed.
Lemma lib_names_nodup sigs : NoDup (lib_names sigs).
Proof.
  unfold lib_names. apply nodup_app.
  - apply nodup_map; [congruence|apply seq_NoDup].
  - apply names_for_nodup.
  - intros x I I'. apply in_map_iff in I. destruct I as (i & <- & _). now apply names_for_in in I'.
Qed.
Lemma lib_names_ok sigs n : In n (lib_names sigs) -> name_ok n.
Proof.
  unfold lib_names. intros I. apply in_app_or in I as [I|I].
  - apply in_map_iff in I. destruct I as (i & <- & I). apply in_seq in I. cbn [name_ok]. lia.
  - apply names_for_in in I. destruct n; [destruct I|exact Logic.I..].
Qed.
Lemma rust_names_nodup sigs : NoDup (map rf_name (rust_lib sigs)).
Proof.
  rewrite rust_lib_names. pose proof (lib_names_nodup sigs) as N. pose proof (@lib_names_ok sigs) as O.
  induction (lib_names sigs) as [|n l IH]; [constructor|]. cbn [map]. inversion N as [|? ? Ni Nl]; subst. constructor.
  - intros I. apply in_map_iff in I. destruct I as (n' & E & I). apply name_str_inj in E; [subst; auto|apply O; now right|apply O; now left].
  - apply IH; [exact Nl|]. intros m I. apply O. now right.
Qed.

(** ** Finding a function *)
Lemma find_named fns g : NoDup (map rf_name fns) -> In g fns -> fn_named fns (rf_name g) = Some g.
Proof.
  intros N I. unfold fn_named. induction fns as [|h fns IH]; [destruct I|]. cbn [find map] in *. inversion N as [|? ? Nh Nf]; subst.
  destruct (String.eqb_spec (rf_name g) (rf_name h)) as [E|E].
  - f_equal. destruct I as [I|I]; [exact I|]. exfalso. apply Nh. rewrite <- E. now apply in_map.
  - destruct I as [->|I]; [congruence|auto].
Qed.
Lemma rust_found sigs g : In g (rust_lib sigs) -> fn_named (rust_lib sigs) (rf_name g) = Some g.
Proof. apply find_named, rust_names_nodup. Qed.
Lemma boiler_in sigs g : In g rust_boilerplate -> In g (rust_lib sigs).
Proof. intros I. apply in_or_app. now left. Qed.
Lemma lib_for_generic ft sigs : In ft sigs -> forall counts done g, In g (rust_generic (List.length (ft_out ft)) (List.length (ft_in ft))) ->
  ~ In (ft_count ft) counts -> In g (rust_lib_for counts done sigs).
Proof.
  induction sigs as [|ft' sigs IH]; intros I counts done g G N; [destruct I|]. cbn [rust_lib_for].
  destruct (count_eqb (ft_count ft) (ft_count ft')) eqn:E.
  - apply count_eqb_iff in E. apply in_or_app. left. destruct (existsb (count_eqb (ft_count ft')) counts) eqn:X.
    + apply (seen_in _ count_eqb_iff) in X. rewrite <- E in X. contradiction.
    + unfold ft_count in E. injection E as <- <-. exact G.
  - apply in_or_app. right. apply in_or_app. right. destruct I as [->|I].
    + pose proof (proj2 (count_eqb_iff (ft_count ft) (ft_count ft)) eq_refl). congruence.
    + apply IH; auto. intros [C|C]; [|auto]. pose proof (proj2 (count_eqb_iff (ft_count ft) (ft_count ft')) (eq_sym C)). congruence.
Qed.
Lemma lib_for_special ft sigs : In ft sigs -> forall counts done g, In g (rust_special ft) ->
  ~ In ft done -> In g (rust_lib_for counts done sigs).
Proof.
  induction sigs as [|ft' sigs IH]; intros I counts done g G N; [destruct I|]. cbn [rust_lib_for].
  apply in_or_app. right. apply in_or_app. destruct (functy_eqb ft ft') eqn:E.
  - apply functy_eqb_iff in E. subst ft'. left. destruct (existsb (functy_eqb ft) done) eqn:X.
    + apply (seen_in _ functy_eqb_iff) in X. contradiction.
    + exact G.
  - right. destruct I as [->|I].
    + pose proof (proj2 (functy_eqb_iff ft ft) eq_refl). congruence.
    + apply IH; auto. intros [C|C]; [|auto]. pose proof (proj2 (functy_eqb_iff ft ft') (eq_sym C)). congruence.
Qed.
Lemma generic_in_lib sigs ft g : In ft sigs -> In g (rust_generic (List.length (ft_out ft)) (List.length (ft_in ft))) -> In g (rust_lib sigs).
Proof. intros I G. apply in_or_app. right. apply (@lib_for_generic ft); auto. Qed.
Lemma special_in_lib sigs ft g : In ft sigs -> In g (rust_special ft) -> In g (rust_lib sigs).
Proof. intros I G. apply in_or_app. right. apply (@lib_for_special ft); auto. Qed.
