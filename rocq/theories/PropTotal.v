(** C45: instrumenting a well-formed module does not fail. *)
From Coq Require Import Permutation.
From Verif Require Import Typing Nesting NestingSpec NestingProofs WeaveSpec WeaveProofs WeavePropProofs InstrumentProofs
  ImportProofs ValidOutput Interface PropInterface ExModule PropTyping PropValid.
Local Open Scope se_scope.

(** ** Specification *)
(** Function, table and label indices and arities are below [2^31]: those are the numbers the
    instrumentation pushes as [i32] constants, unwrapping the conversion. *)
Definition low31 (n : nat) : Prop := (Z.of_nat n < 2 ^ 31)%Z.
Definition instr31 (i : low) : Prop :=
  match i with
  | LBlock ft | LLoop ft | LIf ft => low31 (List.length (ft_in ft)) /\ low31 (List.length (ft_out ft))
  | LBasic (BCall f) => low31 f
  | LBasic (BCallIndirect _ t) => low31 t
  | LBasic (BBrIf l) => low31 l
  | LBasic (BBrTable table d) => Forall low31 (d :: table)
  | _ => True
  end.
Definition module31 (m : module) : Prop :=
  low31 (List.length (md_funcs m)) /\
  Forall (fun f => low31 (List.length (ft_in (fn_type f))) /\ low31 (List.length (ft_out (fn_type f))) /\
     match fn_code f with FPresent _ body => (Z.of_nat (List.length body) < 2 ^ 63)%Z /\ Forall instr31 body | FImport _ _ => True end)
    (md_funcs m).

(** ** Bodies *)
Definition fits_here (i : tinstr) : Prop :=
  fits64 (m_pos (meta_of i)) /\
  match i with TBasic _ b => fits_basic b | TBlock _ ft _ | TLoop _ ft _ | TIf _ ft _ _ => fits_ft ft end.
Lemma fits_occurs b : (forall i, occurs i b -> fits_here i) -> fits b.
Proof.
  induction b as [|m b rs IHr|m ft body rs IHb IHr|m ft body rs IHb IHr|m ft thn rs IHt IHr|m ft thn els rs IHt IHe IHr]
    using tbody_ind; intros F; [exact Logic.I|..];
    (split; [|apply IHr; intros i O; apply F; now apply oc_next]);
    match goal with |- fits1 ?i => destruct (F i (oc_here _ _)) as [A B] end; cbn in A, B.
  - now split.
  - split; [exact A|]. split; [exact B|]. apply IHb. intros i O. apply F. now apply oc_block.
  - split; [exact A|]. split; [exact B|]. apply IHb. intros i O. apply F. now apply oc_loop.
  - split; [exact A|]. split; [exact B|]. split; [|exact Logic.I]. apply IHt. intros i O. apply F. now apply oc_then.
  - split; [exact A|]. split; [exact B|]. split.
    + apply IHt. intros i O. apply F. now apply oc_then.
    + apply IHe. intros i O. apply F. now apply oc_else.
Qed.
Lemma fits_structured f infer body b : (Z.of_nat (List.length body) < 2 ^ 63)%Z -> Forall instr31 body ->
  structure_typed f infer body = COk b -> fits b.
Proof.
  intros L F E. destruct (structure_typed_located _ _ _ E) as (tys & _ & Loc & _). apply fits_occurs. intros i O.
  destruct (Loc i O) as (_ & _ & N & _).
  assert (P : m_pos (meta_of i) < List.length body) by (apply nth_error_Some; congruence).
  split; [unfold fits64, low31 in *; lia|].
  rewrite Forall_forall in F. specialize (F _ (nth_error_In _ _ N)).
  destruct i as [m b0|m ft b0|m ft b0|m ft t e]; cbn in F |- *; try exact F.
  destruct b0; try exact Logic.I; try exact F. inversion F; subst. split; assumption.
Qed.

Lemma structure_all_ok infer m is : annotates infer m ->
  (forall i, In i is -> exists f, nth_error (md_funcs m) i = Some f /\ has_code f = true) ->
  exists bodies, structure_all infer m is = COk bodies.
Proof.
  intros AN. induction is as [|i is IH]; intros S; [eexists; reflexivity|].
  destruct (S i (or_introl eq_refl)) as (f & N & C). destruct IH as (bs & E); [intros j J; apply S; now right|].
  cbn [structure_all]. rewrite N. destruct f as [ft [|locals body] ex]; [discriminate|].
  destruct (AN i _ locals body N eq_refl) as (tys & b & _ & _ & St & _). rewrite St, E. eexists. reflexivity.
Qed.
Lemma transform_all_ok ts : NoDup (map fst ts) -> if_then_first (map fst ts) ->
  forall bodies s, Forall (fun b => NoDup (map fst (br_tables b)) /\ fits b) bodies ->
  exists bs s', transform_all ts bodies s = Some (bs, s').
Proof.
  intros ND IT. induction bodies as [|b r IH]; intros s F; [eexists; eexists; reflexivity|].
  inversion F as [|? ? [Nb Fb] Fr]; subst. cbn [transform_all]. unfold se_bind, se_ret.
  destruct (run_passes_weave ts b s ND IT Nb) as (c & Hc & Ec). rewrite Ec, (Hc Fb).
  match goal with |- context [s ++ ?x] => destruct (IH (s ++ x) Fr) as (bs & s' & E) end. rewrite E. eexists. eexists. reflexivity.
Qed.

(** ** Interception *)
Lemma link_all_ok is : forall acc s, (forall i, In i is -> i < List.length s) -> exists ls s', link_all is acc s = Some (ls, s').
Proof.
  induction is as [|i is IH]; intros acc s B; [eexists; eexists; reflexivity|].
  cbn [link_all]. unfold se_bind, get_func.
  destruct (nth_error s i) as [f|] eqn:N; [|apply nth_error_None in N; specialize (B i (or_introl eq_refl)); lia].
  destruct (find_link acc (fn_type f)).
  - apply IH. intros j J. apply B. now right.
  - destruct (link_signature_spec (fn_type f) s (le_n _)) as (sh & El & _). rewrite El.
    apply IH. intros j J. rewrite app_length. specialize (B j (or_intror J)). lia.
Qed.
Lemma intercept_all_ok ls g is : forall k s,
  low31 (k + List.length is) ->
  (forall i, In i is -> low31 i /\ exists f sh, nth_error s i = Some f /\ find_link ls (fn_type f) = Some sh /\
     low31 (List.length (ft_in (fn_type f))) /\ low31 (List.length (ft_out (fn_type f)))) ->
  exists aps s', intercept_all ls g k is s = Some (aps, s').
Proof.
  induction is as [|i is IH]; intros k s K P; [eexists; eexists; reflexivity|].
  destruct (P i (or_introl eq_refl)) as (Li & f & sh & N & Fl & La & Lr).
  cbn [intercept_all]. unfold se_bind, se_ret.
  assert (Lk : low31 k) by (unfold low31 in *; cbn in K; lia).
  assert (Ex : exists ap s1, intercept ls g k i s = Some (ap, s1) /\ exists l, map fn_type s1 = map fn_type s ++ l).
  { assert (E : exists ap s1, intercept ls g k i s = Some (ap, s1)).
    { unfold intercept, se_bind, get_func, lift, add_func, se_ret, set_func. rewrite N, Fl.
      rewrite !(i32_of_fits La), !(i32_of_fits Lr), (i32_of_fits Lk), (i32_of_fits Li).
      assert (Ll : i < List.length s) by (apply nth_error_Some; congruence).
      destruct (Nat.ltb_spec i (List.length ((s ++ [copy_of f]) ++ [apply_fn sh (List.length s)]))) as [_|G].
      - eexists. eexists. reflexivity.
      - rewrite !app_length in G. lia. }
    destruct E as (ap & s1 & E). exists ap, s1. split; [exact E|].
    destruct (@intercept_types _ _ _ _ _ _ _ E) as (f' & _ & T). eexists. exact T. }
  destruct Ex as (ap & s1 & E & l & T). rewrite E.
  destruct (IH (S k) s1) as (aps & s2 & E2).
  - cbn [List.length] in K. now replace (S k + List.length is) with (k + S (List.length is)) by lia.
  - intros j J. destruct (P j (or_intror J)) as (Lj & f' & sh' & N' & Fl' & La' & Lr'). split; [exact Lj|].
    assert (Q : nth_error (map fn_type s1) j = Some (fn_type f')).
    { rewrite T. apply nth_error_app_l. now rewrite nth_error_map, N'. }
    rewrite nth_error_map in Q. destruct (nth_error s1 j) as [f1|]; [|discriminate]. injection Q as Q.
    exists f1, sh'. rewrite Q. auto.
  - rewrite E2. eexists. eexists. reflexivity.
Qed.

(** C45: a module whose bodies the external type checker accepts, with at most one memory and
    with indices and arities below [2^31], is instrumented: neither an error nor a panic. *)
Theorem C45_instrumentation_succeeds : forall ord_i ord_c infer m hs only,
  (forall l, Permutation (ord_i l) l) -> (forall l, Permutation (ord_c l) l) ->
  annotates infer m -> List.length (md_mems m) <= 1 -> module31 m ->
  exists m' lib, instrument ord_i ord_c infer m (interface_from hs) only = IOk m' lib.
Proof.
  intros ord_i ord_c infer m hs only Pi Pc AN LM [Lfs SM]. unfold instrument.
  set (is_i := ord_i (filter (selected_incl m only) (indices m))).
  set (is_c := ord_c (filter (selected m only) (indices m))).
  assert (InC : forall i, In i is_c -> selected m only i = true).
  { intros i I. apply selected_In. eapply Permutation_in; [apply Pc|exact I]. }
  assert (InI : forall i, In i is_i -> selected_incl m only i = true).
  { intros i I. apply selected_incl_In. eapply Permutation_in; [apply Pi|exact I]. }
  destruct (@structure_all_ok infer m is_c AN) as (bodies & Es).
  { intros i I. apply InC in I. unfold selected in I. destruct (nth_error (md_funcs m) i) as [f|]; [|discriminate].
    exists f. split; [reflexivity|]. now destruct (has_code f). }
  rewrite Es.
  assert (F2 := structure_all_spec _ _ _ Es).
  assert (NB : Forall (fun b => NoDup (map fst (br_tables b)) /\ fits b) bodies).
  { clear - F2 SM. induction F2 as [|i b is bodies (ft & lo & body & ex & N & S) F IH]; constructor; auto.
    rewrite Forall_forall in SM. destruct (SM _ (nth_error_In _ _ N)) as (_ & _ & L & B).
    split; [|eapply fits_structured; eassumption].
    destruct (structure_typed_located _ _ _ S) as (tys & _ & _ & ND). now apply br_tables_positions. }
  destruct (install_spec (interface_from hs) all_hooks_order (md_funcs m)) as (ts & Ei & Ef & _).
  assert (T := @transform_all_ok ts).
  destruct T with (bodies := bodies) (s := md_funcs m ++ hook_imports (interface_from hs) all_hooks_order) as (bs & s1 & Et).
  { rewrite Ef. apply NoDup_filter, all_hooks_NoDup. }
  { rewrite Ef. apply if_then_first_filter, all_hooks_if_then_first. }
  { exact NB. }
  cbv zeta. unfold se_bind at 1 2. rewrite Ei, Et.
  set (fs1 := write_back is_c bs s1).
  destruct (@step1_spec all_hooks_order infer m (interface_from hs) only is_c bodies fs1) as (H & hf & G & _).
  { apply all_hooks_NoDup. } { apply all_hooks_if_then_first. } { apply all_hooks_complete. } { apply Pc. } { exact Es. }
  { unfold se_bind. now rewrite Ei, Et. }
  clear Ei Et Ef T Es F2. clearbody fs1.
  assert (LM' : Nat.leb (List.length (md_mems m)) 1 = true) by now apply Nat.leb_le.
  destruct (ai_generic (interface_from hs)) as [[gexp base]|].
  2:{ unfold inject_memory. rewrite LM'. eexists. eexists. reflexivity. }
  assert (Lis : List.length is_i <= List.length (md_funcs m)).
  { unfold is_i. rewrite (Permutation_length (Pi _)). rewrite <- (seq_length (List.length (md_funcs m)) 0).
    apply NoDup_incl_length; [apply indices_filter_NoDup|]. intros i I. apply filter_In in I. exact (proj1 I). }
  assert (Lf1 : List.length (md_funcs m) <= List.length fs1) by exact (grows_length G).
  assert (Bi : forall i, In i is_i -> i < List.length (md_funcs m)).
  { intros i I. apply InI in I. unfold selected_incl in I. apply nth_error_Some. now destruct (nth_error (md_funcs m) i). }
  unfold function_application, se_bind, add_import, add_func, lift, se_ret.
  set (s2 := fs1 ++ [_]).
  assert (L2 : List.length (md_funcs m) <= List.length s2) by (unfold s2; rewrite app_length; lia).
  destruct (@link_all_ok is_i [] s2) as (ls & s3 & El).
  { intros i I. specialize (Bi i I). lia. }
  rewrite El.
  destruct (@link_all_spec is_i [] s2 ls s3 (List.length (md_funcs m)) L2) as ((new & E3 & U) & _ & _ & FL).
  { constructor. } { exact El. }
  assert (Ty : forall i, i < List.length (md_funcs m) -> exists f f0, nth_error s2 i = Some f /\ nth_error s3 i = Some f /\
    nth_error (md_funcs m) i = Some f0 /\ fn_type f = fn_type f0).
  { intros i B. destruct G as (_ & Gs & _).
    destruct (nth_error fs1 i) as [f|] eqn:N1; [|apply nth_error_None in N1; lia].
    destruct (nth_error (md_funcs m) i) as [f0|] eqn:N0; [|apply nth_error_None in N0; lia].
    exists f, f0. assert (N2 : nth_error s2 i = Some f) by now apply nth_error_app_l.
    split; [exact N2|]. split; [rewrite E3; now apply nth_error_app_l|]. split; [reflexivity|].
    apply (f_equal (fun l => nth_error l i)) in Gs. rewrite !nth_error_map, !nth_error_firstn' in Gs by exact B.
    rewrite N1, N0 in Gs. now injection Gs. }
  destruct (@intercept_all_ok ls (List.length fs1) is_i 0 s3) as (aps & s4 & Ea).
  { unfold low31 in *. lia. }
  { intros i I. specialize (Bi i I). split; [unfold low31 in *; lia|].
    destruct (Ty i Bi) as (f & f0 & N2 & N3 & N0 & Et'). destruct (FL i f I N2) as (sh & Fl).
    exists f, sh. rewrite Et'. rewrite Et' in Fl. rewrite Forall_forall in SM.
    destruct (SM _ (nth_error_In _ _ N0)) as (La & Lr & _). auto. }
  rewrite Ea.
  assert (La : List.length aps = List.length is_i).
  { eapply intercept_all_spec with (n := List.length (md_funcs m)); [| | |exact Ea]; auto.
    - rewrite E3, app_length. lia.
    - eapply Permutation_NoDup; [symmetry; apply Pi|apply indices_filter_NoDup]. }
  destruct (Z.ltb_spec (Z.of_nat (List.length aps)) (2 ^ 32)) as [_|Ge]; [|unfold low31 in *; lia].
  unfold inject_memory. rewrite LM'. eexists. eexists. reflexivity.
Qed.
Print Assumptions C45_instrumentation_succeeds.

(** ** Examples *)
Example ex_c45 :
  annotates ex_infer ex_module /\ List.length (md_mems ex_module) <= 1 /\ module31 ex_module /\
  match instrument ex_id ex_id ex_infer ex_module (interface_from ex_all_selected) None with IOk _ _ => True | _ => False end.
Proof.
  split; [exact ex_annotates|]. split; [vm_compute; lia|]. split; [|vm_compute; exact Logic.I].
  split; [vm_compute; reflexivity|].
  repeat (constructor; [split; [vm_compute; reflexivity|split; [vm_compute; reflexivity|]]; cbn [fn_code]|]); try exact Logic.I.
  all: try (split; [vm_compute; reflexivity|]).
  all: repeat first [apply Forall_nil | apply Forall_cons].
  all: cbv [instr31]; try exact Logic.I; try (split; vm_compute; reflexivity); try (vm_compute; reflexivity).
  all: repeat first [apply Forall_nil | apply Forall_cons; [vm_compute; reflexivity|]].
Qed.
(** The premises are needed: two memories, or a body the type checker rejects, fail. *)
Example ex_c45_mems :
  instrument ex_id ex_id ex_infer (Mod [] [] [Mem 0 None None []; Mem 0 None None []] [] [] [] None) (interface_from []) None = IPanic.
Proof. reflexivity. Qed.
Example ex_c45_rejected :
  exists e, instrument ex_id ex_id (fun _ _ => None) ex_module (interface_from []) None = IErr e.
Proof. eexists. vm_compute. reflexivity. Qed.
