(** Property theorems C24, C25, C26: what the output module contains. *)
From Coq Require Import Permutation.
From Verif Require Import Instrument InstrumentProofs Advice ExModule.
Local Open Scope string_scope.
Local Open Scope list_scope.

(** C24: a function that was not asked for, or whose signature mentions a reference type,
    is in the output as it was. *)
Theorem C24_unselected_untouched : forall ord_i ord_c infer m ai only m' lib f fn,
  (forall l, Permutation (ord_i l) l) -> (forall l, Permutation (ord_c l) l) ->
  instrument ord_i ord_c infer m ai only = IOk m' lib ->
  nth_error (md_funcs m) f = Some fn ->
  (exists r, In (TRef r) (ft_in (fn_type fn) ++ ft_out (fn_type fn))) \/
  (exists ts, only = Some ts /\ ~ In f ts) ->
  nth_error (md_funcs m') f = Some fn.
Proof.
  intros ord_i ord_c infer m ai only m' lib f fn Pi Pc E Ef U.
  destruct (@instrument_layout _ _ _ _ _ _ _ _ Pi Pc E) as (H & hf & aps & LY & _).
  assert (S : selected_incl m only f = false).
  { unfold selected_incl. rewrite Ef. destruct U as [(r & I)|(ts & -> & N)].
    - assert (uses_refs fn = true) as ->; [|reflexivity]. unfold uses_refs. rewrite <- existsb_app.
      apply existsb_exists. exists (TRef r). auto.
    - assert (requested (Some ts) f = false) as ->; [|apply andb_false_r]. simpl.
      destruct (existsb (Nat.eqb f) ts) eqn:X; [|reflexivity]. apply existsb_exists in X.
      destruct X as (g & I & Q). apply Nat.eqb_eq in Q. subst g. contradiction. }
  assert (S2 : selected m only f = false).
  { unfold selected, selected_incl in *. rewrite Ef in *. rewrite S. apply andb_false_r. }
  rewrite (ly_plain LY _ Ef).
  - f_equal. unfold woven_fn, woven. rewrite S2. destruct fn as [ft [ns nm|ls b] ex]; reflexivity.
  - destruct (ai_generic ai); [|intros []]. intros I. apply (Permutation_in _ (Pi _)) in I.
    apply selected_incl_In in I. congruence.
Qed.
Print Assumptions C24_unselected_untouched.

(** C25: everything the input has is in the output at its index, with its type and export
    names; tables, memories, globals, segments and the start function are unchanged. *)
Theorem C25_indices_survive : forall ord_i ord_c infer m ai only m' lib,
  (forall l, Permutation (ord_i l) l) -> (forall l, Permutation (ord_c l) l) ->
  instrument ord_i ord_c infer m ai only = IOk m' lib ->
  (forall f fn, nth_error (md_funcs m) f = Some fn ->
     exists fn', nth_error (md_funcs m') f = Some fn' /\ fn_type fn' = fn_type fn /\ fn_exports fn' = fn_exports fn) /\
  (forall i t, nth_error (md_tables m) i = Some t -> nth_error (md_tables m') i = Some t) /\
  (forall i e, nth_error (md_elems m) i = Some e -> nth_error (md_elems m') i = Some e) /\
  md_mems m' = md_mems m /\ md_globals m' = md_globals m /\ md_datas m' = md_datas m /\ md_start m' = md_start m.
Proof.
  intros ord_i ord_c infer m ai only m' lib Pi Pc E.
  destruct (@instrument_layout _ _ _ _ _ _ _ _ Pi Pc E) as (H & hf & aps & LY & Et & Ee & Em & Eg & Ed & Es & _).
  split; [|split; [|split]]; [| | |auto].
  - intros f fn Ef. destruct (ly_shape LY) as (olds & mid & Q & _ & S & _). rewrite Q.
    assert (Ef' : nth_error (map sig_of olds) f = Some (sig_of fn)) by (rewrite S; now apply map_nth_error).
    rewrite nth_error_map in Ef'. destruct (nth_error olds f) as [fn'|] eqn:N; [|discriminate].
    simpl in Ef'. exists fn'. split; [now apply nth_error_app_l|]. injection Ef' as A B. auto.
  - intros i t It. rewrite Et. now apply nth_error_app_l.
  - intros i t It. rewrite Ee. now apply nth_error_app_l.
Qed.
Print Assumptions C25_indices_survive.

(** ** Export names *)
Definition exports_of (m : module) : list string :=
  flat_map fn_exports (md_funcs m) ++ flat_map tb_exports (md_tables m) ++
  flat_map mm_exports (md_mems m) ++ flat_map gl_exports (md_globals m).
(** The names under which the instrumentation exports its memory functions, as the analysis
    libraries import them. *)
Definition memory_names : list string :=
  ["instrumented_base_load_i32"; "instrumented_base_load_i64"; "instrumented_base_load_f32";
   "instrumented_base_load_f64"; "instrumented_base_load_i32_8S"; "instrumented_base_load_i32_8U";
   "instrumented_base_load_i32_16S"; "instrumented_base_load_i32_16U"; "instrumented_base_load_i64_8S";
   "instrumented_base_load_i64_8U"; "instrumented_base_load_i64_16S"; "instrumented_base_load_i64_16U";
   "instrumented_base_load_i64_32S"; "instrumented_base_load_i64_32U";
   "instrumented_base_store_i32"; "instrumented_base_store_i64"; "instrumented_base_store_f32";
   "instrumented_base_store_f64"; "instrumented_base_store_i32_8"; "instrumented_base_store_i32_16";
   "instrumented_base_store_i64_8"; "instrumented_base_store_i64_16"; "instrumented_base_store_i64_32";
   "instrumented_memory_grow"; "instrumented_memory_size"].

Lemma exports_out ord_i ord_c infer m ai only m' lib :
  (forall l, Permutation (ord_i l) l) -> (forall l, Permutation (ord_c l) l) ->
  instrument ord_i ord_c infer m ai only = IOk m' lib ->
  exports_of m' =
    (flat_map fn_exports (md_funcs m)
     ++ (match ai_generic ai with Some (_, b) => [wf_name b] | None => [] end) ++ memory_names)
    ++ flat_map tb_exports (md_tables m) ++ flat_map mm_exports (md_mems m) ++ flat_map gl_exports (md_globals m).
Proof.
  intros Pi Pc E.
  destruct (@instrument_layout _ _ _ _ _ _ _ _ Pi Pc E) as (H & hf & aps & LY & Et & Ee & Em & Eg & Ed & Es & _).
  unfold exports_of. rewrite Et, Em, Eg. destruct (ly_shape LY) as (olds & mid & -> & _ & S & U).
  rewrite !flat_map_app.
  assert (A : flat_map fn_exports olds = flat_map fn_exports (md_funcs m)).
  { rewrite !flat_map_concat_map. f_equal. change fn_exports with (fun f => snd (sig_of f)).
    rewrite <- !(map_map sig_of snd). now rewrite S. }
  assert (B : flat_map fn_exports mid = []).
  { clear - U. induction U as [|f l Uf U IH]; [reflexivity|]. simpl. rewrite Uf. exact IH. }
  rewrite A, B. simpl ([] ++ _).
  assert (C : flat_map fn_exports (memory_helpers (Nat.eqb (List.length (md_mems m)) 1)) = memory_names)
    by (destruct (Nat.eqb _ _); reflexivity).
  destruct (ai_generic ai) as [[g b]|]; simpl; rewrite ?app_nil_r; reflexivity.
Qed.

(** C26: export names stay distinct as long as the input uses none of the added names. *)
Theorem C26_distinct_unless_clash : forall ord_i ord_c infer m ai only m' lib,
  (forall l, Permutation (ord_i l) l) -> (forall l, Permutation (ord_c l) l) ->
  instrument ord_i ord_c infer m ai only = IOk m' lib ->
  NoDup (exports_of m) ->
  (forall x, In x memory_names -> ~ In x (exports_of m)) ->
  (forall g b, ai_generic ai = Some (g, b) -> ~ In (wf_name b) (memory_names ++ exports_of m)) ->
  NoDup (exports_of m').
Proof.
  intros ord_i ord_c infer m ai only m' lib Pi Pc E ND NM NB. rewrite (@exports_out _ _ _ _ _ _ _ _ Pi Pc E).
  set (rest := flat_map tb_exports (md_tables m) ++ flat_map mm_exports (md_mems m) ++ flat_map gl_exports (md_globals m)).
  set (add := match ai_generic ai with Some (_, b) => [wf_name b] | None => [] end ++ memory_names).
  unfold exports_of in *. fold rest in ND, NM, NB.
  apply (Permutation_NoDup (l := add ++ (flat_map fn_exports (md_funcs m) ++ rest))).
  { rewrite !app_assoc. apply Permutation_app_tail, Permutation_app_comm. }
  assert (NDm : NoDup memory_names).
  { repeat (constructor; [simpl; intuition discriminate|]). constructor. }
  assert (D : forall a b : list string, NoDup a -> NoDup b -> (forall x, In x a -> ~ In x b) -> NoDup (a ++ b)).
  { clear. intros a b Na Nb D. induction Na as [|x a N Na IH]; [exact Nb|]. simpl. constructor.
    - rewrite in_app_iff. intros [I|I]; [contradiction|]. apply (D x); [now left|exact I].
    - apply IH. intros y I. apply D. now right. }
  apply D; [|exact ND|].
  - unfold add. destruct (ai_generic ai) as [[g b]|]; [|exact NDm]. simpl. constructor; [|exact NDm].
    intros I. apply (NB g b eq_refl). apply in_or_app. now left.
  - intros x I. unfold add in I. apply in_app_or in I. destruct I as [I|I]; [|now apply NM].
    destruct (ai_generic ai) as [[g b]|]; [|destruct I]. destruct I as [<-|[]].
    intros J. apply (NB g b eq_refl). apply in_or_app. now right.
Qed.
Print Assumptions C26_distinct_unless_clash.

(** Without that condition the output has two exports of the same name. *)
Definition ex_clash : module :=
  Mod [Fn (FT [] []) (FPresent [] [LEnd]) ["instrumented_memory_size"]] [] [] [] [] [] None.
Theorem C26_clash_refuted : exists m m' lib,
  NoDup (exports_of m) /\ instrument ex_id ex_id ex_types m (std_ai (fun _ => false) false) None = IOk m' lib /\
  ~ NoDup (exports_of m').
Proof.
  exists ex_clash. eexists. eexists. split; [|split; [reflexivity|]].
  - repeat constructor. intros [].
  - simpl. intros N. inversion N as [|x l NI _]. apply NI. simpl. tauto.
Qed.
Print Assumptions C26_clash_refuted.
(** Likewise for [call_base], which is added when functions are intercepted. *)
Theorem C26_call_base_clash_refuted : exists m m' lib,
  NoDup (exports_of m) /\ instrument ex_id ex_id ex_types m (std_ai (fun _ => false) true) None = IOk m' lib /\
  ~ NoDup (exports_of m').
Proof.
  exists (Mod [Fn (FT [] []) (FPresent [] [LEnd]) ["call_base"]] [] [] [] [] [] None). eexists. eexists.
  split; [|split; [vm_compute; reflexivity|]].
  - repeat constructor. intros [].
  - vm_compute. intros N. inversion N as [|x l NI _]. apply NI. simpl. tauto.
Qed.
Print Assumptions C26_call_base_clash_refuted.

(** The example module with every hook and interception, asking for functions 0 to 2:
    function 3 is untouched, indices and exports are kept, exports are distinct. *)
Example ex_instrumented :
  match ex_out (fun _ => true) true (Some [2; 1; 0; 3]) with
  | Some m' =>
      nth_error (md_funcs m') 3 = nth_error (md_funcs ex_module) 3 /\
      map fn_type (firstn 4 (md_funcs m')) = map fn_type (md_funcs ex_module) /\
      List.length (md_funcs m') = 129 /\
      List.length (exports_of m') = 32
  | None => False
  end.
Proof. vm_compute. repeat split. Qed.
Example ex_hypotheses :
  NoDup (exports_of ex_module) /\ (forall x, In x memory_names -> ~ In x (exports_of ex_module)) /\
  ~ In "call_base" (memory_names ++ exports_of ex_module) /\
  (exists r, In (TRef r) (ft_in (FT [TRef FuncRef] []) ++ [])) /\ (forall l, Permutation (ex_id l) l).
Proof.
  split; [|split; [|split; [|split]]].
  - repeat (constructor; [simpl; intuition discriminate|]). constructor.
  - simpl. intuition (subst; discriminate).
  - simpl. intuition discriminate.
  - exists FuncRef. simpl. auto.
  - intros l. apply Permutation_refl.
Qed.
