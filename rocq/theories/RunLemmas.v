(** Executing straight-line code, and the branch-table helper (C12). *)
From Verif Require Import Semantics Nesting NestingProofs BrTable WeaveSpec.
Local Open Scope res_scope.

Section Run.
  Context {X : Type}.
  Notation store := (store X).
  Notation res := (res store).
  Variable num1 : unop -> Z -> option Z.
  Variable num2 : binop -> Z -> Z -> option Z.
  Variable ftype : nat -> option functy.
  Variable call : nat -> list val -> store -> res (list val * store).
  Variable loops : nat.
  Notation run1 := (run1 num1 num2 ftype call loops).
  Notation run := (run num1 num2 ftype call loops).
  Notation exec := (exec num1 num2 ftype call).

  Lemma andthen_next (m : res (@conf X)) : andthen m next = m.
  Proof. destruct m as [[[[[] st] ls] s]|s| |]; reflexivity. Qed.
  Lemma andthen_assoc (m : res (@conf X)) k k' :
    andthen (andthen m k) k' = andthen m (fun st ls s => andthen (k st ls s) k').
  Proof. destruct m as [[[[[] st] ls] s]|s| |]; reflexivity. Qed.
  Lemma andthen_ext (m : res (@conf X)) k k' :
    (forall st ls s, k st ls s = k' st ls s) -> andthen m k = andthen m k'.
  Proof. intros E. destruct m as [[[[[] st] ls] s]|s| |]; simpl; auto. Qed.
  Lemma run_seq_app {I} (f : I -> list val -> list val -> store -> res (@conf X)) a b st ls s :
    run_seq f (a ++ b) st ls s = andthen (run_seq f a st ls s) (run_seq f b).
  Proof.
    revert st ls s. induction a as [|i a IH]; intros st ls s; [reflexivity|].
    simpl. rewrite andthen_assoc. apply andthen_ext. intros. apply IH.
  Qed.
  Lemma run_seq_one {I} (f : I -> list val -> list val -> store -> res (@conf X)) i st ls s :
    run_seq f [i] st ls s = f i st ls s.
  Proof. apply andthen_next. Qed.

  Lemma run_app a b st ls s : run (a ++ b) st ls s = andthen (run a st ls s) (run b).
  Proof. apply run_seq_app. Qed.
  Lemma run_const t z r st ls s : run (UBasic (BConst t z) :: r) st ls s = run r (VNum t z :: st) ls s.
  Proof. reflexivity. Qed.
  Lemma run_get i v r st ls s : nth_error ls i = Some v ->
    run (UBasic (BLocal LGet i) :: r) st ls s = run r (v :: st) ls s.
  Proof. intros E. unfold run. simpl. now rewrite E. Qed.
  Lemma run_set i w v r st ls s : nth_error ls i = Some w ->
    run (UBasic (BLocal LSet i) :: r) (v :: st) ls s = run r st (set_nth i v ls) s.
  Proof. intros E. unfold run. simpl. now rewrite E. Qed.
  Lemma run_call f ft args r st ls s : ftype f = Some ft -> List.length args = List.length (ft_in ft) ->
    run (UBasic (BCall f) :: r) (pushn args st) ls s =
    let* (rs, s') := call f args s in run r (pushn rs st) ls s'.
  Proof.
    intros E L. unfold run. simpl. rewrite E. simpl. unfold do_call. rewrite <- L, popn_pushn. simpl.
    destruct (call f args s) as [[rs s']|s'| |]; reflexivity.
  Qed.
  Lemma run_consts cs r st ls s :
    run (map (fun c => UBasic (BConst (fst c) (snd c))) cs ++ r) st ls s
    = run r (pushn (map (fun c => VNum (fst c) (snd c)) cs) st) ls s.
  Proof.
    revert st. induction cs as [|[t z] cs IH]; intros st; [reflexivity|].
    cbn [map app]. rewrite run_const, IH. f_equal. unfold pushn. simpl. now rewrite <- app_assoc.
  Qed.
  (** Pushing consecutive locals. *)
  Lemma run_gets vs pre post r st s :
    run (map (fun i => UBasic (BLocal LGet i)) (seq (List.length pre) (List.length vs)) ++ r) st (pre ++ vs ++ post) s
    = run r (pushn vs st) (pre ++ vs ++ post) s.
  Proof.
    revert pre st. induction vs as [|v vs IH]; intros pre st; [reflexivity|].
    cbn [List.length seq map app].
    rewrite run_get with (v := v) by apply nth_error_app_exact.
    specialize (IH (pre ++ [v]) (v :: st)). rewrite app_length in IH. simpl in IH.
    rewrite Nat.add_1_r, <- app_assoc in IH. simpl in IH. rewrite IH. f_equal.
    unfold pushn. simpl. now rewrite <- app_assoc.
  Qed.
End Run.

Lemma structure_basics bs : structure_untyped (map LBasic bs ++ [LEnd]) = COk (map UBasic bs).
Proof.
  rewrite <- (structure_untyped_flatten (map UBasic bs)). f_equal. unfold uflatten. f_equal.
  unfold uflat. induction bs as [|b bs IH]; [reflexivity|]. simpl. now rewrite IH.
Qed.

Section Helper.
  Context {X : Type}.
  Notation store := (store X).
  Variable num1 : unop -> Z -> option Z.
  Variable num2 : binop -> Z -> Z -> option Z.
  Variable ftype : nat -> option functy.
  Variable call : nat -> list val -> store -> res store (list val * store).
  Variable loops : nat.
  Notation run1 := (run1 num1 num2 ftype call loops).
  Notation run := (run num1 num2 ftype call loops).

  Definition case_code (x : Z) : list uinstr :=
    [UBasic (BLocal LGet 0); UBasic (BConst TI32 x); UBasic BReturn].
  (** The nested blocks; [rxs] is the list of cases, innermost last. *)
  Fixpoint nest (inner : list uinstr) (rxs : list Z) : list uinstr :=
    match rxs with
    | [] => [UBlock ft_empty inner]
    | x :: r => [UBlock ft_empty (nest inner r ++ case_code x)]
    end.

  Lemma nest_flat inner xs :
    uflat (nest inner (rev xs)) =
    map (fun _ => LBlock ft_empty) xs ++ (LBlock ft_empty :: uflat inner ++ [LEnd])
    ++ flat_map (fun x => [LBasic (BLocal LGet 0); LBasic (BConst TI32 x); LBasic BReturn; LEnd]) xs.
  Proof.
    induction xs as [|x xs IH] using rev_ind.
    - simpl. now rewrite !app_nil_r.
    - rewrite rev_unit. cbn [nest]. unfold uflat at 1. cbn [flat_map uflat1]. fold (uflat (nest inner (rev xs) ++ case_code x)).
      rewrite uflat_app, IH, map_app, flat_map_app. cbn [map flat_map].
      assert (C : forall {A} (l : list A) r, LBlock ft_empty :: map (fun _ => LBlock ft_empty) l ++ r
                    = (map (fun _ => LBlock ft_empty) l ++ [LBlock ft_empty]) ++ r).
      { intros A l r. induction l as [|a l IHl]; [reflexivity|]. simpl. now rewrite <- IHl. }
      rewrite app_nil_r, <- C. simpl. f_equal. rewrite <- !app_assoc. f_equal. simpl. rewrite <- !app_assoc. simpl. reflexivity.
  Qed.

  Lemma run_nest inner rxs l i ls (s : store) :
    nth_error ls 0 = Some (vi32 i) ->
    (forall st, run inner st ls s = Ok (OBr l, st, ls, s)) ->
    run (nest inner rxs) [] ls s =
    if Nat.ltb l (List.length rxs) then Ok (ORet, [vi32 (nth l (rev rxs) 0%Z); vi32 i], ls, s)
    else if Nat.eqb l (List.length rxs) then next [] ls s
    else Ok (OBr (l - List.length rxs - 1), [], ls, s).
  Proof.
    intros E In. induction rxs as [|x rxs IH].
    - unfold run. simpl. rewrite andthen_next. unfold run_block. simpl.
      change (run_seq run1 inner) with (run inner). rewrite In. destruct l as [|l]; simpl; [reflexivity|].
      now rewrite Nat.sub_0_r.
    - cbn [nest]. unfold run. simpl. rewrite andthen_next. unfold run_block. simpl.
      change (run_seq run1 (nest inner rxs ++ case_code x)) with (run (nest inner rxs ++ case_code x)).
      rewrite run_app. change (pushn [] []) with (@nil val). rewrite IH. clear IH In.
      set (k := List.length rxs).
      assert (Lr : List.length (rev rxs) = k) by apply rev_length.
      destruct (Nat.ltb_spec l k) as [L|L].
      + destruct (Nat.ltb_spec l (S k)) as [_|]; [|lia]. rewrite app_nth1 by lia. reflexivity.
      + destruct (Nat.eqb_spec l k) as [->|N].
        * destruct (Nat.ltb_spec k (S k)) as [_|]; [|lia]. rewrite app_nth2 by lia. rewrite Lr, Nat.sub_diag.
          destruct ls as [|v ls]; [discriminate|]. injection E as ->. reflexivity.
        * destruct (Nat.ltb_spec l (S k)) as [|_]; [lia|]. destruct (Nat.eqb_spec l (S k)) as [->|N'].
          -- replace (S k - k - 1) with 0 by lia. reflexivity.
          -- replace (l - k - 1) with (S (l - S k - 1)) by lia. reflexivity.
  Qed.

  (** C12, on the body. *)
  Lemma br_helper_run table d i (s : store) : (0 <= i)%Z ->
    exists b, structure_untyped (br_helper_body (map Z.of_nat table) (Z.of_nat d)) = COk b /\
      invoke (run b) br_helper_type [t_i32] [vi32 i] s
      = Ok ([vi32 i; vi32 (Z.of_nat (nth (Z.to_nat i) table d))], s).
  Proof.
    intros Hi.
    assert (Hn : forall k, nth k (map Z.of_nat table) (Z.of_nat d) = Z.of_nat (nth k table d)) by (intros; apply map_nth).
    destruct table as [|x [|y table]].
    - exists [UBasic (BLocal LGet 0); UBasic (BConst TI32 (Z.of_nat d))]. split.
      + apply (structure_untyped_flatten [UBasic (BLocal LGet 0); UBasic (BConst TI32 (Z.of_nat d))]).
      + simpl. destruct (Z.to_nat i); reflexivity.
    - set (b := [UBasic (BLocal LGet 0); UBasic (BLocal LGet 0); UBasic (BUnary I32Eqz);
                 UIf (FT [] [t_i32]) [UBasic (BConst TI32 (Z.of_nat x))] (Some [UBasic (BConst TI32 (Z.of_nat d))])]).
      exists b. split; [apply (structure_untyped_flatten b)|].
      unfold b, Semantics.run, invoke. simpl. destruct (Z.eqb_spec i 0) as [->|N].
      + reflexivity.
      + simpl. destruct (Z.to_nat i) as [|[|k]] eqn:Q; [lia| |]; reflexivity.
    - set (t := x :: y :: table) in *. set (n := List.length t).
      set (inner := [UBasic (BLocal LGet 0); UBasic (BBrTable (seq 0 n) n)]).
      set (b := nest inner (rev (map Z.of_nat t)) ++ [UBasic (BLocal LGet 0); UBasic (BConst TI32 (Z.of_nat d))]).
      exists b. split.
      + rewrite <- (structure_untyped_flatten b). f_equal. unfold uflatten, b. rewrite uflat_app, nest_flat.
        assert (Eb : br_helper_body (map Z.of_nat t) (Z.of_nat d) =
          map (fun _ => LBlock ft_empty) (map Z.of_nat t)
          ++ [LBlock ft_empty; LBasic (BLocal LGet 0);
              LBasic (BBrTable (seq 0 (List.length (map Z.of_nat t))) (List.length (map Z.of_nat t))); LEnd]
          ++ flat_map (fun x => [LBasic (BLocal LGet 0); LBasic (BConst TI32 x); LBasic BReturn; LEnd]) (map Z.of_nat t)
          ++ [LBasic (BLocal LGet 0); LBasic (BConst TI32 (Z.of_nat d)); LEnd]) by reflexivity.
        rewrite Eb, map_length. fold n. rewrite <- !app_assoc. reflexivity.
      + unfold invoke. unfold b. rewrite run_app.
        set (l := nth (Z.to_nat i) (seq 0 n) n).
        rewrite (@run_nest inner _ l i).
        2: reflexivity.
        2: { intros st. reflexivity. }
        rewrite rev_length, map_length. fold n. rewrite rev_involutive.
        destruct (Nat.lt_ge_cases (Z.to_nat i) n) as [L|L].
        * assert (El : l = Z.to_nat i) by (unfold l; rewrite seq_nth; lia).
          rewrite El. destruct (Nat.ltb_spec (Z.to_nat i) n); [|lia]. cbn -[nth map t].
          rewrite (nth_indep _ 0%Z (Z.of_nat d)) by (now rewrite map_length). now rewrite Hn.
        * assert (El : l = n) by (unfold l; rewrite nth_overflow; [reflexivity|now rewrite seq_length]).
          rewrite El, Nat.ltb_irrefl, Nat.eqb_refl. cbn -[nth map t]. rewrite nth_overflow by exact L. reflexivity.
  Qed.
End Helper.

(** C12, as a function of a module. *)
Lemma br_helper_call {X} num1 num2 ext (fs : list func) n f p table d i (s : store X) : (0 <= i)%Z ->
  nth_error fs f = Some (helper_fn (p, (table, d))) ->
  call_fn num1 num2 ext fs (S n) f [vi32 i] s
  = Ok ([vi32 i; vi32 (Z.of_nat (nth (Z.to_nat i) table d))], s).
Proof.
  intros Hi E. cbn [call_fn]. rewrite E. simpl.
  destruct (@br_helper_run X num1 num2 (ftype_of fs) (call_fn num1 num2 ext fs n) n table d i s Hi) as (b & Eb & R).
  rewrite Eb. exact R.
Qed.
