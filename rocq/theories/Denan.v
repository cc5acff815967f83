(** The analysis denan (benchmarking-node/input-analyses/rust/denan/src/lib.rs): no operator of the program sees a NaN
    or yields one; a zero takes its place. *)
From Verif Require Import Semantics Advice RsStdlib StackLib StackSpec StackOps System Trace ForwardRel ForwardBody ForwardProofs Recorder RunLemmas
  SystemProofs AccessProofs PropStdlib.
Local Open Scope string_scope.
Local Open Scope list_scope.
Local Open Scope res_scope.
Local Open Scope Z_scope.

(** [f32::is_nan] and [f64::is_nan] of core: the bits without the sign are greater than those of infinity. *)
Definition is_nan (v : val) : bool :=
  match v with
  | VNum TF32 z => 255 * 2 ^ 23 <? z mod 2 ^ 31
  | VNum TF64 z => 2047 * 2 ^ 52 <? z mod 2 ^ 63
  | _ => false
  end.
(** [Denan::denan], L7-15. *)
Definition denan (v : val) : val :=
  match v with VNum t _ => if is_nan v then VNum t 0 else v | _ => v end.

Section Denan.
  Context {X : Type}.
  Variable num1 : unop -> Z -> option Z.
  Variable num2 : binop -> Z -> Z -> option Z.
  (** L24-30. The analysis has no other advice on instructions; other hooks are not installed. *)
  Definition denan_body (a : advice) : xprog X :=
    match a with
    | AdUnary o v _ => match unary_apply num1 o (denan v) with Some r => XRet [denan r] | None => XTrap end           (* L24 *)
    | AdBinary o a b _ => match binary_apply num2 o (denan a) (denan b) with Some r => XRet [denan r] | None => XTrap end  (* L25 *)
    | AdConst v _ | AdLocal v _ _ _ | AdGlobal v _ _ _ => XRet [denan v]                                              (* L26-28 *)
    | AdLoad i off o _ => xbind (load_perform o i off) (fun vs => XRet (map denan vs))                                (* L29 *)
    | AdStore i v off o _ => store_perform o i (denan v) off                                                          (* L30 *)
    | _ => forward_body num1 num2 a
    end.
  (** Functions of the buffer library. *)
  Variable stack : string -> list val -> xprog X.
  (** The advice [apply], L19-23. *)
  Definition denan_apply (f : wasm_function) (args ress : runtime_values) : xprog X :=
    xbind (update_each_arg stack args (fun _ v => denan v)) (fun _ =>
    xbind (wasm_function_apply f) (fun _ => update_each_res stack ress (fun _ v => denan v))).
End Denan.
(** The hooks installed besides [apply], L24-30. *)
Definition denan_hooks (h : hook) : bool :=
  match h with
  | HkUnary _ _ | HkBinary _ | HkConst _ | HkLocal _ _ | HkGlobal _ _ | HkLoad _ | HkStore _ => true
  | _ => false
  end.

(** A NaN, by IEEE 754: all bits of the exponent are ones and the fraction is not zero. *)
Definition nan (v : val) : Prop :=
  match v with
  | VNum TF32 z => (z / 2 ^ 23) mod 2 ^ 8 = 255 /\ z mod 2 ^ 23 <> 0
  | VNum TF64 z => (z / 2 ^ 52) mod 2 ^ 11 = 2047 /\ z mod 2 ^ 52 <> 0
  | _ => False
  end.
Lemma is_nan_ok v : is_nan v = true <-> nan v.
Proof.
  assert (H : forall z e f, 0 < e -> 0 < f -> (2 ^ e - 1) * 2 ^ f < z mod 2 ^ (f + e) <-> (z / 2 ^ f) mod 2 ^ e = 2 ^ e - 1 /\ z mod 2 ^ f <> 0).
  { intros z e f He Hf. rewrite Z.pow_add_r by lia. rewrite Z.rem_mul_r by (apply Z.pow_nonzero || apply Z.pow_pos_nonneg; lia).
    pose proof (Z.mod_pos_bound z (2 ^ f) ltac:(apply Z.pow_pos_nonneg; lia)) as B1.
    pose proof (Z.mod_pos_bound (z / 2 ^ f) (2 ^ e) ltac:(apply Z.pow_pos_nonneg; lia)) as B2.
    set (F := 2 ^ f) in *. set (E := 2 ^ e) in *. set (a := z mod F) in *. set (b := (z / F) mod E) in *. clearbody F E a b. split.
    - intros L. assert (b = E - 1) by nia. subst b. split; [reflexivity|]. nia.
    - intros [-> N]. nia. }
  destruct v as [[]|]; cbn [is_nan nan]; try (split; [discriminate|contradiction]).
  - rewrite Z.ltb_lt. exact (H z 8 23 ltac:(lia) ltac:(lia)).
  - rewrite Z.ltb_lt. exact (H z 11 52 ltac:(lia) ltac:(lia)).
Qed.
Lemma nan_dec v : {nan v} + {~ nan v}.
Proof. destruct (is_nan v) eqn:E; [left|right]; rewrite <- is_nan_ok; congruence. Qed.
Lemma denan_same v : ~ nan v -> denan v = v.
Proof. intros N. destruct v as [t z|]; [|reflexivity]. unfold denan. destruct (is_nan (VNum t z)) eqn:E; [|reflexivity]. apply is_nan_ok in E. contradiction. Qed.
Lemma denan_clean v : ~ nan (denan v).
Proof.
  destruct (nan_dec v) as [N|N]; [|now rewrite denan_same]. destruct v as [t z|]; [|destruct N].
  unfold denan. rewrite (proj2 (is_nan_ok _) N). destruct t; cbn; first [intros [H _]; discriminate H|intros []].
Qed.
Lemma denan_zero t z : nan (VNum t z) -> denan (VNum t z) = VNum t 0.
Proof. intros N. unfold denan. now rewrite (proj2 (is_nan_ok _) N). Qed.
Lemma denan_type v : typeof (denan v) = typeof v.
Proof. destruct v as [t z|]; [|reflexivity]. unfold denan. destruct (is_nan _); reflexivity. Qed.
Lemma denan_range v : in_range v = true -> in_range (denan v) = true.
Proof. destruct v as [t z|]; [|auto]. unfold denan. destruct (is_nan _); [destruct t; reflexivity|auto]. Qed.
Lemma denan_map vs : ~ Exists nan vs -> map denan vs = vs.
Proof.
  intros N. induction vs as [|v vs IH]; [reflexivity|]. cbn [map]. f_equal.
  - apply denan_same. intros H. apply N. now left.
  - apply IH. intros H. apply N. now right.
Qed.
Lemma nans_dec vs : Exists nan vs \/ ~ Exists nan vs.
Proof. destruct (Exists_dec nan vs nan_dec); auto. Qed.

Section Events.
  Variable num1 : unop -> Z -> option Z.
  Variable num2 : binop -> Z -> Z -> option Z.
  (** Events in which a NaN may turn up: among the operands, as the result of an operator, among the arguments or
      results of a function. Events do not carry the values loaded; loads of floats all count. *)
  Definition shows_nan (e : event) : Prop :=
    match e with
    | EvAdvice (AdUnary o v _) => nan v \/ exists t z r, v = VNum t z /\ unop_sem num1 o z = Some r /\ nan (VNum (unop_out o) r)
    | EvAdvice (AdBinary o a b _) =>
        nan a \/ nan b \/ exists t x t' y r, a = VNum t x /\ b = VNum t' y /\ binop_sem num2 o x y = Some r /\ nan (VNum (binop_out o) r)
    | EvAdvice (AdConst v _) | EvAdvice (AdLocal v _ _ _) | EvAdvice (AdGlobal v _ _ _) | EvAdvice (AdStore _ v _ _ _) => nan v
    | EvAdvice (AdLoad _ _ o _) => loadop_ty o = TF32 \/ loadop_ty o = TF64
    | EvAdvice _ => False
    | EvEnter _ _ vs | EvLeave _ vs => Exists nan vs
    end.

  Context {Y A : Type}.
  Variable obs : A -> event -> A.
  Hypothesis IG : forall a e, obs a e = a.
  Lemma denan_guards : guards_advice (Y := Y) obs num1 num2 (fun _ => True) (Exists shows_nan) (fun _ _ => False) (denan_body num1 num2).
  Proof.
    intros export adv l a s Sz. rewrite IG.
    assert (Fo : forall P : Prop, P \/ shows_nan (EvAdvice adv) -> P \/ Exists shows_nan [EvAdvice adv]).
    { intros P [H|H]; [now left|right; now constructor]. }
    enough (Hw : run_x export (denan_body num1 num2 adv) (lift l a s) = run_x export (forward_body num1 num2 adv) (lift l a s) \/ shows_nan (EvAdvice adv)).
    { destruct (Fo _ Hw) as [H|H]; [left; split; [exact Logic.I|exact H]|right; right; now left]. }
    destruct adv; try (left; reflexivity); cbn [denan_body forward_body shows_nan].
    - destruct (nan_dec v) as [N|N]; [right; now left|]. rewrite (denan_same _ N).
      destruct v as [t z|r z]; [|left; unfold unary_apply; destruct (find _ _) as [[[[[]]]]|]; reflexivity].
      rewrite C13_unary_apply. destruct (numty_eqb t (unop_in o)); [|now left]. destruct (unop_sem num1 o z) as [r|] eqn:Er; [|now left]. cbn [option_map].
      destruct (nan_dec (VNum (unop_out o) r)) as [N'|N']; [right; right; exists t, z, r; auto|]. left. now rewrite denan_same.
    - destruct (nan_dec a0) as [N|N]; [right; now left|]. destruct (nan_dec b) as [N'|N']; [right; right; now left|].
      rewrite (denan_same _ N), (denan_same _ N').
      destruct a0 as [t x|r x]; [|left; unfold binary_apply; destruct (find _ _) as [[[[[[]]]]]|]; reflexivity].
      destruct b as [t' y|r' y]; [|left; unfold binary_apply; destruct (find _ _) as [[[[[[]]]]]|]; reflexivity].
      rewrite C13_binary_apply. destruct (_ && _); [|now left]. destruct (binop_sem num2 o x y) as [r|] eqn:Er; [|now left]. cbn [option_map].
      destruct (nan_dec (VNum (binop_out o) r)) as [N2|N2]; [right; right; right; exists t, x, t', y, r; auto|]. left. now rewrite denan_same.
    - destruct (nan_dec v) as [N|N]; [now right|]. left. now rewrite denan_same.
    - destruct (nan_dec v) as [N|N]; [now right|]. left. now rewrite denan_same.
    - destruct (nan_dec v) as [N|N]; [now right|]. left. now rewrite denan_same.
    - assert (Ty : {loadop_ty o = TF32 \/ loadop_ty o = TF64} + {loadop_ty o = TI32 \/ loadop_ty o = TI64}) by (destruct (loadop_ty o); auto).
      destruct Ty as [Ty|Ty]; [now right|]. left.
      destruct (Sz index offset eq_refl) as (_ & _ & me & _ & _ & _ & _ & Ld & _). specialize (Ld o l0 l a eq_refl). cbn [forward_body] in Ld.
      rewrite run_x_bind, Ld. destruct (mem_load me o _) as [z|]; [|reflexivity]. cbn [rbind run_x map].
      rewrite denan_same; [reflexivity|]. destruct Ty as [-> | ->]; intros [].
    - destruct (nan_dec v) as [N|N]; [now right|]. left. now rewrite denan_same.
  Qed.
End Events.

Section Calls.
  Context {Y A : Type}.
  Variable sigs : list functy.
  Variable lc : lib_code.
  Variable library : lib_states.
  Variable limit : Z.
  Variable stops : Prop.
  Hypothesis IM : implements sigs lc library limit stops.
  Notation agent := (@lib_agent (A * Y) lc).
  Variable export : string -> list val -> store (sys (A * Y)) -> res (store (sys (A * Y))) (list val * store (sys (A * Y))).

  Lemma updated_denan k vs : updated (fun _ v => denan v) k vs = map denan vs.
  Proof. revert k. induction vs as [|v vs IH]; intros k; cbn; f_equal; auto. Qed.
  Lemma seen_all vs ws : Forall2 sees (map Some vs) ws -> ws = vs.
  Proof. revert ws. induction vs as [|v vs IH]; intros ws H; inversion H; subst; [reflexivity|]. cbn in *. subst. f_equal. auto. Qed.
  (** Going over one side of the topmost buffer. *)
  Lemma denan_side sd frs ifs ifr q qt vs l a (s : store Y) :
    side_of sd ifr = map Some vs -> library ((if_type ifr, q, qt) :: frs) (ifr :: ifs) l ->
    exists l1, run_x export (match sd with SArg => update_each_arg agent (values_of (if_type ifr) q) (fun _ v => denan v)
                             | SRet => update_each_res agent (values_of (if_type ifr) q) (fun _ v => denan v) end) (lift l a s) = Ok ([], lift l1 a s) /\
      library ((if_type ifr, q, qt) :: frs) (with_side sd (map Some (map denan vs)) ifr :: ifs) l1.
  Proof.
    intros Es H.
    destruct (@lib_frame sigs lc library limit stops IM _ _ _ 0%nat ifr H eq_refl) as (_ & _ & _ & _ & _ & _ & Nu & Lr & La & Ty).
    destruct (@update_ok (A * Y) sigs lc library limit stops IM export sd (fun _ v => denan v) (map Some vs) ((if_type ifr, q, qt) :: frs) (ifr :: ifs) 0%nat ifr q qt 0%nat
      (lift l a s) [] eq_refl eq_refl H Es eq_refl) as (ws & l1 & Ws & Ru & H1).
    { intros i o v Ei Sv. cbn [plus]. rewrite nth_error_map in Ei. destruct (nth_error vs i) as [w|] eqn:Ew; [|discriminate Ei].
      cbn in Ei. injection Ei as <-. cbn [sees] in Sv. subst v.
      destruct (Ty sd i w) as (t & Et & Tw & Rw); [rewrite Es, nth_error_map, Ew; reflexivity|].
      unfold ok_for. rewrite Et. unfold vals_ok. cbn [map list_eqb forallb]. rewrite denan_type, Tw, denan_range by exact Rw.
      destruct t as [[]|[]]; reflexivity. }
    apply seen_all in Ws. subst ws. rewrite updated_denan in H1. exists l1. split; [|exact H1].
    assert (Ls : List.length (map Some vs) = List.length (side_types (if_type ifr) sd)) by (rewrite <- Es; destruct sd; assumption).
    rewrite Ls in Ru. destruct sd; unfold update_each_arg, update_each_res; cbn [rv_argc rv_resc values_of]; rewrite Nat2Z.id; exact Ru.
  Qed.

  (** What the advice does to a call with arguments [args]: the function finds them without NaNs, and so are the
      results found in the buffer afterwards. *)
  Lemma denan_calls frs ifs ft q qt args k f (code : bool) l a (s : store Y) :
    library ((ft, q, qt) :: frs) (fresh ft args :: ifs) l ->
    exists l1 rest, library ((ft, q, qt) :: frs) (fresh ft (map denan args) :: ifs) l1 /\
      run_x export (denan_apply agent (WasmFn k f q (if code then 0 else 1)) (values_of ft q) (values_of ft q)) (lift l a s)
      = (let* (vs, s1) := export "call_base" [vi32 k; vi32 q] (lift l1 a s) in run_x export (rest vs) s1) /\
      forall vs rs as' l2 a2 (s2 : store Y), library ((ft, q, qt) :: frs) (IF ft (map Some rs) as' :: ifs) l2 ->
        exists l3, run_x export (rest vs) (lift l2 a2 s2) = Ok ([], lift l3 a2 s2) /\
          library ((ft, q, qt) :: frs) (IF ft (map Some (map denan rs)) as' :: ifs) l3.
  Proof.
    intros H. destruct (@denan_side SArg frs ifs (fresh ft args) q qt args l a s eq_refl H) as (l1 & R1 & H1).
    exists l1, (fun _ => update_each_res agent (values_of ft q) (fun _ v => denan v)). split; [exact H1|]. split.
    - unfold denan_apply. rewrite run_x_bind. cbn [if_type fresh] in R1. rewrite R1. cbn [rbind]. rewrite run_x_bind. unfold wasm_function_apply. cbn [wf_apply wf_sigv run_x].
      destruct (export _ _ _) as [[vs s1]|?| |]; reflexivity.
    - intros vs rs as' l2 a2 s2 H2. exact (@denan_side SRet frs ifs (IF ft (map Some rs) as') q qt rs l2 a2 s2 eq_refl H2).
  Qed.
End Calls.
Lemma denan_hands {Y A} (obs : A -> event -> A) (IG : forall a e, obs a e = a) num1 num2 sigs lc library limit stops (IM : implements sigs lc library limit stops) :
  hands_calls (Y := Y) obs library (Exists (shows_nan num1 num2)) (denan_apply (@lib_agent (A * Y) lc)).
Proof.
  intros export frs ifs ft q qt args k f code l a s H.
  destruct (nans_dec args) as [N|N]; [left; constructor; exact N|right].
  destruct (@denan_calls Y A sigs lc library limit stops IM export frs ifs ft q qt args (Z.of_nat k) (Z.of_nat f) code l a s H) as (l1 & rest & H1 & R & K).
  rewrite (denan_map N) in H1. exists l1, rest. split; [exact H1|]. split; [rewrite IG; exact R|].
  intros vs rs l2 a2 s2 H2. destruct (nans_dec rs) as [N'|N']; [left; constructor; exact N'|right].
  destruct (K vs rs _ l2 a2 s2 H2) as (l3 & R3 & H3). rewrite (denan_map N') in H3. exists [], l3. rewrite IG. split; [exact R3|exact H3].
Qed.
