(** Names in the library that is generated for AssemblyScript: every name has one meaning. *)
From Verif Require Import AsLib RustNames StackNames StackAsm StackOps InstrumentProofs.
Local Open Scope string_scope.
Local Open Scope list_scope.

Lemma as_generic_names r a : map af_name (as_generic r a) = map name_str (gen_names r a).
Proof.
  unfold as_generic, gen_names, RustNames.gen_ops. rewrite !map_app, !map_map. cbn [af_name].
  replace (map af_name [as_allocate_generic r a]) with [name_str (NGen LAlloc r a)] by reflexivity.
  rewrite !(map_ext (fun n => name_str (NGen (LLoad _ n) r a)) (fun n => load_count_name _ n r a)) by (intros; apply load_str).
  rewrite !(map_ext (fun n => name_str (NGen (LStore _ n) r a)) (fun n => store_count_name _ n r a)) by (intros; apply store_str).
  reflexivity.
Qed.
Lemma as_special_names ft : map af_name (as_special ft) = map name_str (op_names ft).
Proof.
  unfold as_special, op_names, RustNames.gen_ops. rewrite !map_app, <- !enum_fst, !map_map. cbn [af_name map].
  rewrite !op_str. f_equal. do 4 (apply f_equal2; [apply map_ext; intros; symmetry; apply op_str|]). reflexivity.
Qed.
Lemma as_lib_for_names sigs : forall counts done, map af_name (as_lib_for counts done sigs) = map name_str (names_for counts done sigs).
Proof.
  induction sigs as [|ft sigs IH]; intros counts done; [reflexivity|]. cbn [as_lib_for names_for]. rewrite !map_app, IH.
  f_equal; [|f_equal].
  - destruct (existsb _ counts); [reflexivity|apply as_generic_names].
  - destruct (existsb _ done); [reflexivity|apply as_special_names].
Qed.

Definition boiler_words : list (list string) :=
  [["grow"; "memory"]; ["total"; "used"; "memory"; "in"; "bytes"]; ["stack"; "allocate"]; ["stack"; "deallocate"];
   ["stack"; "allocate"; "values"]; ["stack"; "deallocate"; "values"]; ["stack"; "allocate"; "types"]; ["stack"; "deallocate"; "types"];
   ["wastrumentation"; "stack"; "load"; "type"]; ["wastrumentation"; "stack"; "store"; "type"];
   ["wastrumentation"; "stack"; "load"; "i32"]; ["wastrumentation"; "stack"; "load"; "f32"];
   ["wastrumentation"; "stack"; "load"; "i64"]; ["wastrumentation"; "stack"; "load"; "f64"];
   ["wastrumentation"; "stack"; "store"; "i32"]; ["wastrumentation"; "stack"; "store"; "f32"];
   ["wastrumentation"; "stack"; "store"; "i64"]; ["wastrumentation"; "stack"; "store"; "f64"];
   ["wastrumentation"; "memory"; "load"]; ["wastrumentation"; "memory"; "store"]].
Definition boiler_names : list string := map (fun b => snd (fst b)) as_boilerplate.
Lemma boiler_names_words : boiler_names = map (join "_") boiler_words.
Proof. reflexivity. Qed.
Lemma boiler_word ws : In ws boiler_words -> Forall word ws /\ ~ In "ret" ws.
Proof.
  intros I. simpl in I.
  repeat (destruct I as [<-|I]; [split; [words|intros J; simpl in J; repeat destruct J as [J|J]; try discriminate J; auto]|]).
  destruct I.
Qed.
Lemma generated_not_boiler sigs counts done f : In f boiler_names -> ~ In f (map af_name (as_lib_for counts done sigs)).
Proof.
  rewrite boiler_names_words, as_lib_for_names. intros I J. apply in_map_iff in I, J.
  destruct I as (ws & <- & I), J as (n & E & J). destruct (@boiler_word ws I) as [W R]. unfold name_str in E.
  apply join_inj in E; [|apply name_words_word|exact W]. subst ws. apply R. apply names_for_in in J.
  destruct n as [i|o r a|ft o]; [destruct J| |]; cbn [name_words]; unfold sig_words; apply in_or_app; right; now left.
Qed.
Lemma generated_nodup sigs : NoDup (map af_name (as_lib sigs)).
Proof.
  unfold as_lib. rewrite as_lib_for_names. pose proof (names_for_nodup sigs [] []) as N.
  assert (O : forall n, In n (names_for [] [] sigs) -> name_ok n).
  { intros n I. apply names_for_in in I. destruct n; [destruct I|exact Logic.I..]. }
  induction (names_for [] [] sigs) as [|n l IH]; [constructor|]. cbn [map]. inversion N as [|? ? Ni Nl]; subst. constructor.
  - intros I. apply in_map_iff in I. destruct I as (n' & E & I). apply name_str_inj in E; [subst; auto|apply O; now right|apply O; now left].
  - apply IH; [exact Nl|]. intros m I. apply O. now right.
Qed.
Lemma as_names_nodup sigs : NoDup (boiler_names ++ map af_name (as_lib sigs)).
Proof.
  apply nodup_app; [|apply generated_nodup|].
  - apply distinct_strs_NoDup. vm_compute. reflexivity.
  - intros f I J. exact (@generated_not_boiler sigs [] [] f I J).
Qed.

(** ** Finding a function *)
Lemma as_found sigs g : In g (as_lib sigs) -> afn_named (as_lib sigs) (af_name g) = Some g.
Proof.
  pose proof (generated_nodup sigs) as N. intros I. unfold afn_named.
  induction (as_lib sigs) as [|h fns IH]; [destruct I|]. cbn [find map] in *. inversion N as [|? ? Nh Nf]; subst.
  destruct (String.eqb_spec (af_name g) (af_name h)) as [E|E].
  - f_equal. destruct I as [I|I]; [exact I|]. exfalso. apply Nh. rewrite <- E. now apply in_map.
  - destruct I as [->|I]; [congruence|auto].
Qed.
Lemma as_not_found sigs f : In f boiler_names -> afn_named (as_lib sigs) f = None.
Proof.
  intros I. unfold afn_named. destruct (find _ _) as [g|] eqn:E; [|reflexivity]. exfalso.
  apply find_some in E. destruct E as [Ig Eg]. apply String.eqb_eq in Eg. subst f.
  apply (@generated_not_boiler sigs [] [] _ I). now apply in_map.
Qed.
Lemma as_for_generic ft sigs : In ft sigs -> forall counts done g, In g (as_generic (List.length (ft_out ft)) (List.length (ft_in ft))) ->
  ~ In (ft_count ft) counts -> In g (as_lib_for counts done sigs).
Proof.
  induction sigs as [|ft' sigs IH]; intros I counts done g G N; [destruct I|]. cbn [as_lib_for].
  destruct (count_eqb (ft_count ft) (ft_count ft')) eqn:E.
  - apply count_eqb_iff in E. apply in_or_app. left. destruct (existsb (count_eqb (ft_count ft')) counts) eqn:X.
    + apply (seen_in _ count_eqb_iff) in X. rewrite E in N. contradiction.
    + unfold ft_count in E. injection E as E1 E2. rewrite <- E1, <- E2. exact G.
  - apply in_or_app. right. apply in_or_app. right. apply IH; [|exact G|].
    + destruct I as [->|I]; [|exact I]. rewrite (proj2 (count_eqb_iff _ _) eq_refl) in E. discriminate.
    + intros [C|C]; [|contradiction]. rewrite (proj2 (count_eqb_iff _ _) (eq_sym C)) in E. discriminate.
Qed.
Lemma as_for_special ft sigs : In ft sigs -> forall counts done g, In g (as_special ft) -> ~ In ft done -> In g (as_lib_for counts done sigs).
Proof.
  induction sigs as [|ft' sigs IH]; intros I counts done g G N; [destruct I|]. cbn [as_lib_for].
  apply in_or_app. right. destruct (functy_eqb ft ft') eqn:E.
  - apply functy_eqb_eq in E. subst ft'. apply in_or_app. left. destruct (existsb (functy_eqb ft) done) eqn:X; [|exact G].
    apply (seen_in _ functy_eqb_iff) in X. contradiction.
  - apply in_or_app. right. apply IH; [|exact G|].
    + destruct I as [->|I]; [|exact I]. rewrite (proj2 (functy_eqb_eq _ _) eq_refl) in E. discriminate.
    + intros [C|C]; [|contradiction]. rewrite (proj2 (functy_eqb_eq _ _) (eq_sym C)) in E. discriminate.
Qed.
Lemma as_generic_in sigs ft g : In ft sigs -> In g (as_generic (List.length (ft_out ft)) (List.length (ft_in ft))) -> In g (as_lib sigs).
Proof. intros I G. apply (@as_for_generic ft sigs I [] [] g G). intros []. Qed.
Lemma as_special_in sigs ft g : In ft sigs -> In g (as_special ft) -> In g (as_lib sigs).
Proof. intros I G. apply (@as_for_special ft sigs I [] [] g G). intros []. Qed.
