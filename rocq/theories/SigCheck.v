(** The analysis signatures-check of the integration tests
    (wastrumentation-instr-lib/tests/analyses/rust/signatures-check/src/lib.rs): the calls of the program, in the order in
    which they return, are compared with a list of expected ones. A panic traps, so that the locks held (L205-206) are not
    released; without threads, locking a locked [Mutex] of the standard library panics. *)
From Verif Require Import Semantics RsStdlib StackLib StackSpec StackOps System SystemProofs AccessProofs Trace ForwardRel ForwardProofs RunLemmas Recorder StackHist.
Local Open Scope string_scope.
Local Open Scope list_scope.
Local Open Scope res_scope.

(** [CallExpectation], L21-24. *)
Record expectation := Expect { ex_args : list val; ex_results : list val }.
(** [EXPECTATIONS_INDEX] with its lock, and [ALL_EXPECTATIONS_MET], L10 and L97. The lock of [EXPECTATIONS] is taken and
    released along with that of the index. *)
Record sigcheck := SC { sc_index : nat; sc_met : bool; sc_locked : bool }.
(** Their initial values, L10 and L97. *)
Definition sigcheck_zero : sigcheck := SC 0 false false.
(** [are_all_expectations_met], L12-19. *)
Definition are_all_expectations_met (a : sigcheck) : Z := if sc_met a then 1%Z else 0%Z.
(** [PartialEq for WasmValue], wastrumentation-rs-stdlib/src/lib.rs L189-199: floats are compared by their bytes. *)
Definition value_eqb (v w : val) : bool :=
  match v, w with VNum t a, VNum u b => numty_eqb t u && Z.eqb a b | _, _ => false end.

Section SigCheck.
  Context {Y : Type}.
  Notation X := (sys (sigcheck * Y)).
  (** Functions of the buffer library. *)
  Variable stack : string -> list val -> xprog X.
  (** [EXPECTATIONS], L98-197. *)
  Variable expectations : list expectation.

  (** One loop of [CallExpectation::validate_call], L62-73 and L75-86: from index [i] on. An index beyond [i32] is out of
      bounds as well. *)
  Fixpoint validate (ty : Z -> option numty) (get : Z -> xprog X) (i : Z) (expected : list val) (k : xprog X) : xprog X :=
    match expected with
    | [] => k
    | e :: es =>
        match ty i, e with                                                    (* L63-69, L76-82 *)
        | Some t, VNum t' _ =>
            if numty_eqb t t' then
              xbind (get i) (fun vs =>                                        (* L70-72, L83-85 *)
                match vs with
                | [v] => if value_eqb e v then validate ty get (i + 1)%Z es k else XTrap
                | _ => XTrap
                end)
            else XTrap
        | _, _ => XTrap
        end
    end.
  (** [validate_call], L61-87. *)
  Definition validate_call (e : expectation) (args ress : runtime_values) (k : xprog X) : xprog X :=
    validate (get_arg_type args) (get_arg stack args) 0 (ex_args e)
      (validate (get_res_type ress) (get_res stack ress) 0 (ex_results e) k).
  (** Assignment to the globals. *)
  Definition set_check (a : sigcheck) (k : xprog X) : xprog X := XGet (fun x m g => XPut (fst x, (a, snd (snd x))) m g k).
  (** The advice [apply] once the function has returned, L205-215. *)
  Definition sigcheck_after (args ress : runtime_values) : xprog X :=
    XGet (fun x _ _ =>
      let a := fst (snd x) in
      if sc_locked a then XTrap else                                          (* L205-206 *)
      set_check (SC (sc_index a) (sc_met a) true)
        match nth_error expectations (sc_index a) with                        (* L208 *)
        | None => XTrap
        | Some e =>
            validate_call e args ress                                         (* L210 *)
              (set_check (SC (S (sc_index a)) (sc_met a || Nat.eqb (S (sc_index a)) (List.length expectations)) false)  (* L211-216 *)
                 (XRet []))
        end).
  (** The advice [apply], L200-216. *)
  Definition sigcheck_apply (f : wasm_function) (args ress : runtime_values) : xprog X :=
    xbind (wasm_function_apply f) (fun _ => sigcheck_after args ress).        (* L203 *)
End SigCheck.

Lemma value_eqb_eq t z v : value_eqb (VNum t z) v = true <-> v = VNum t z.
Proof.
  destruct v as [u b|]; cbn [value_eqb]; [|split; discriminate]. rewrite andb_true_iff, Z.eqb_eq. split.
  - intros [H ->]. destruct t, u; try discriminate H; reflexivity.
  - intros H. injection H as -> ->. split; [destruct t; reflexivity|reflexivity].
Qed.
Lemma numty_eqb_refl t : numty_eqb t t = true. Proof. destruct t; reflexivity. Qed.
Lemma numty_eqb_true t u : numty_eqb t u = true -> t = u. Proof. destruct t, u; try discriminate; reflexivity. Qed.

Section Validated.
  Context {Y : Type}.
  Variable sigs : list functy.
  Variable lc : lib_code.
  Variable library : lib_states.
  Variable limit : Z.
  Variable stops : Prop.
  Hypothesis IM : implements sigs lc library limit stops.
  Notation agent := (@lib_agent (sigcheck * Y) lc).
  Notation X := (sys (sigcheck * Y)).
  Variable export : string -> list val -> store X -> res (store X) (list val * store X).
  Definition type_at (sd : side) (rv : runtime_values) : Z -> option numty :=
    match sd with SArg => get_arg_type rv | SRet => get_res_type rv end.
  Definition get_at (sd : side) (rv : runtime_values) : Z -> xprog X :=
    match sd with SArg => get_arg agent rv | SRet => get_res agent rv end.

  Lemma type_at_ok sd ft q i : numeric_sig ft = true ->
    option_map TNum (type_at sd (values_of ft q) (Z.of_nat i)) = nth_error (side_types ft sd) i.
  Proof.
    intros Nu. destruct (num_sig _ Nu) as [No Ni].
    assert (T : map TNum (rv_types (values_of ft q)) = ft_out ft ++ ft_in ft).
    { symmetry. apply nums_numeric. unfold numeric in *. now rewrite existsb_app, No, Ni. }
    destruct sd; unfold type_at, get_arg_type, get_res_type, arg_base, res_base; cbn [rv_argc rv_resc values_of side_types];
      (destruct (Z.ltb_spec (Z.of_nat i) 0); [lia|]); cbn [orb].
    - destruct (Z.leb_spec (Z.of_nat (List.length (ft_out ft))) (Z.of_nat i)).
      + symmetry. apply nth_error_None. lia.
      + rewrite <- nth_error_map. rewrite T, Z.add_0_l, Nat2Z.id, nth_error_app1 by lia. reflexivity.
    - destruct (Z.leb_spec (Z.of_nat (List.length (ft_in ft))) (Z.of_nat i)).
      + symmetry. apply nth_error_None. lia.
      + rewrite <- nth_error_map. rewrite T, <- Nat2Z.inj_add, Nat2Z.id, nth_error_app2 by lia. f_equal. lia.
  Qed.

  Lemma validate_ok sd frs ifs ifr q qt vs (a : sigcheck) (s : store Y) k es : forall done left l,
    side_of sd ifr = map Some vs -> vs = done ++ left -> library ((if_type ifr, q, qt) :: frs) (ifr :: ifs) l ->
    (exists more, left = es ++ more) /\
      (exists l1, run_x export (validate (type_at sd (values_of (if_type ifr) q)) (get_at sd (values_of (if_type ifr) q)) (Z.of_nat (List.length done)) es k) (lift l a s)
         = run_x export k (lift l1 a s) /\ library ((if_type ifr, q, qt) :: frs) (ifr :: ifs) l1) \/
    ~ (exists more, left = es ++ more) /\
      exists l1, run_x export (validate (type_at sd (values_of (if_type ifr) q)) (get_at sd (values_of (if_type ifr) q)) (Z.of_nat (List.length done)) es k) (lift l a s) = Trap (lift l1 a s).
  Proof.
    induction es as [|e es IH]; intros done left l Es Ev H.
    - left. split; [now exists left|]. exists l. split; [reflexivity|exact H].
    - destruct (@lib_frame sigs lc library limit stops IM _ _ _ 0 ifr H eq_refl) as (_ & _ & _ & _ & _ & _ & Nu & Lr & La & Ty).
      pose proof (@type_at_ok sd (if_type ifr) q (List.length done) Nu) as TA. cbn [validate].
      assert (Ls : List.length vs = List.length (side_types (if_type ifr) sd)).
      { rewrite <- (map_length Some vs), <- Es. destruct sd; assumption. }
      destruct left as [|v left].
      + right. split; [intros (more & Q); discriminate Q|].
        assert (Nn : nth_error (side_types (if_type ifr) sd) (List.length done) = None).
        { apply nth_error_None. rewrite <- Ls, Ev, app_length. cbn. lia. }
        rewrite Nn in TA. destruct (type_at sd _ _); [discriminate TA|]. eexists. reflexivity.
      + assert (Nv : nth_error vs (List.length done) = Some v) by (rewrite Ev, nth_error_app2, Nat.sub_diag by lia; reflexivity).
        assert (So : nth_error (side_of sd ifr) (List.length done) = Some (Some v)) by (rewrite Es, nth_error_map, Nv; reflexivity).
        destruct (Ty sd (List.length done) v So) as (t & Et & Tv & _). rewrite Et in TA.
        destruct (type_at sd _ _) as [u|]; [|discriminate TA]. cbn in TA. injection TA as <-.
        destruct v as [tv zv|]; [|discriminate Tv]. cbn in Tv. injection Tv as ->.
        destruct e as [te ze|r o].
        2:{ right. split; [intros (more & Q); discriminate Q|]. eexists. reflexivity. }
        destruct (numty_eqb u te) eqn:Eu.
        2:{ right. split; [intros (more & Q); injection Q as -> _ _; rewrite numty_eqb_refl in Eu; discriminate Eu|]. eexists. reflexivity. }
        apply numty_eqb_true in Eu. subst te.
        destruct (@read_ok (sigcheck * Y) sigs lc library limit stops IM export ((if_type ifr, q, qt) :: frs) (ifr :: ifs) 0 ifr q qt eq_refl eq_refl sd (List.length done) (Some (VNum u zv)) (lift l a s) H So)
          as (w & l1 & R1 & H1 & Sw). cbn [sees] in Sw. subst w.
        change (with_lib (lift l a s) l1) with (lift l1 a s) in R1.
        assert (R1' : run_x export (get_at sd (values_of (if_type ifr) q) (Z.of_nat (List.length done))) (lift l a s) = Ok ([VNum u zv], lift l1 a s)) by (destruct sd; exact R1).
        rewrite run_x_bind, R1'. cbn [rbind].
        destruct (value_eqb (VNum u ze) (VNum u zv)) eqn:Ee.
        * apply value_eqb_eq in Ee. injection Ee as ->.
          specialize (IH (done ++ [VNum u ze]) left l1 Es). rewrite app_length, Nat2Z.inj_add in IH. cbn [List.length] in IH. change (Z.of_nat 1) with 1%Z in IH.
          destruct IH as [[(more & Q) Z]|[Q Z]]; [rewrite <- app_assoc; exact Ev|exact H1|left|right].
          -- split; [exists more; cbn; now f_equal|exact Z].
          -- split; [intros (more & Q'); apply Q; exists more; cbn in Q'; now injection Q'|exact Z].
        * right. split; [intros (more & Q); injection Q as -> _; rewrite (proj2 (value_eqb_eq u ze _) eq_refl) in Ee; discriminate Ee|].
          eexists. reflexivity.
  Qed.

  Variable E : list expectation.
  (** The call that returned is as expected next: what is expected of arguments and results comes first in them. *)
  Definition next_expected (a : sigcheck) (args rs : list val) : Prop :=
    exists e more more', nth_error E (sc_index a) = Some e /\ args = ex_args e ++ more /\ rs = ex_results e ++ more'.
  Lemma sigcheck_calls frs ifs ft q qt args k f (code : bool) l a (s : store Y) :
    library ((ft, q, qt) :: frs) (fresh ft args :: ifs) l ->
    exists rest,
      run_x export (sigcheck_apply agent E (WasmFn k f q (if code then 0 else 1)) (values_of ft q) (values_of ft q)) (lift l a s)
      = (let* (vs, s1) := export "call_base" [vi32 k; vi32 q] (lift l a s) in run_x export (rest vs) s1) /\
      forall vs rs args' l2 i met locked (s2 : store Y), library ((ft, q, qt) :: frs) (IF ft (map Some rs) (map Some args') :: ifs) l2 ->
        let a2 := SC i met locked in
        locked = true /\ run_x export (rest vs) (lift l2 a2 s2) = Trap (lift l2 a2 s2) \/
        locked = false /\ next_expected a2 args' rs /\
          (exists l3, run_x export (rest vs) (lift l2 a2 s2) = Ok ([], lift l3 (SC (S i) (met || Nat.eqb (S i) (List.length E)) false) s2) /\
            library ((ft, q, qt) :: frs) (IF ft (map Some rs) (map Some args') :: ifs) l3) \/
        locked = false /\ ~ next_expected a2 args' rs /\
          (exists l3, run_x export (rest vs) (lift l2 a2 s2) = Trap (lift l3 (SC i met true) s2)).
  Proof.
    intros H. exists (fun _ => sigcheck_after agent E (values_of ft q) (values_of ft q)). split; [reflexivity|].
    intros vs rs args' l2 i met locked s2 H2 a2. unfold sigcheck_after. cbn [run_x]. change (fst (snd (st_x (lift l2 a2 s2)))) with a2.
    unfold a2. cbn [sc_locked sc_index sc_met]. destruct locked; [left; split; reflexivity|right].
    unfold next_expected. cbn [sc_index].
    unfold set_check at 1. cbn [run_x]. change (run_x export ?p (set_view _ _ _ _)) with (run_x export p (lift l2 (SC i met true) s2)).
    destruct (nth_error E i) as [e|] eqn:Ne.
    2:{ right. split; [reflexivity|]. split; [intros (e & more & more' & Q & _); discriminate Q|]. exists l2. reflexivity. }
    unfold validate_call. set (fin := set_check _ _).
    set (ifr := IF ft (map Some rs) (map Some args')) in *. set (b := SC i met true).
    destruct (@validate_ok SArg frs ifs ifr q qt args' b s2 (validate (get_res_type (values_of ft q)) (get_res agent (values_of ft q)) 0 (ex_results e) fin) (ex_args e) [] args' l2 eq_refl eq_refl H2)
      as [[(more & Qa) (l3 & R3 & H3)]|[Na (l3 & R3)]].
    - destruct (@validate_ok SRet frs ifs ifr q qt rs b s2 fin (ex_results e) [] rs l3 eq_refl eq_refl H3)
        as [[(more' & Qr) (l4 & R4 & H4)]|[Nr (l4 & R4)]].
      + left. split; [reflexivity|]. split; [exists e, more, more'; auto|]. exists l4. split; [|exact H4].
        etransitivity; [exact R3|]. etransitivity; [exact R4|]. reflexivity.
      + right. split; [reflexivity|]. split; [intros (e' & m1 & m2 & Q & _ & Q2); injection Q as <-; apply Nr; now exists m2|].
        exists l4. etransitivity; [exact R3|]. exact R4.
    - right. split; [reflexivity|]. split; [intros (e' & m1 & m2 & Q & Q2 & _); injection Q as <-; apply Na; now exists m1|]. exists l3. exact R3.
  Qed.
End Validated.
