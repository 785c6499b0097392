(** C22: what the decision tree of an [iguala] does.  The tree is what the code
    generator turns into tests and jumps; [tree_run] (Spec_Match.v) says what that
    code does with a value. *)
From Verif Require Import Base Bson Types Sym Exhaust Spec_Match MatchFacts MatchTree MatchLit.
From Coq Require Import Permutation Lia.

(** For arms without literals that, of every variant, look into at most one
    parameter: compiling succeeds; if no pattern is reported missing, the tree runs
    the first matching arm on every value of the type, with the arm's names bound to
    the matching parts; if one is reported missing, there is a value no arm matches
    (when every type has a value).
    Missing from the full statement: arms with literals ([C22_default_refuted]),
    arms that look into several parameters ([C22_first_arm_refuted], Prop_Front.v),
    and that the code of an arm finds its operands where it should
    ([C13_expression_refuted], Prop_Front.v). *)
Theorem C22_tree_partial :
  forall (teq : cty -> cty -> bool) (ctors : cty -> option (list (dcons * list cty))) (inf : cty -> bool)
         (target : xvar) (arms : list xpat) dict next,
    (forall t, teq t t = true) ->
    one_way ctors (xv_ty target) (fun p => In p arms) ->
    (xv_id target < next)%nat ->
    exists t s, compile_iguala teq ctors inf target arms dict next = XOk t s /\
      (x_missing s = false ->
         forall w, fits ctors (xv_ty target) w ->
           exists i b b', first_match arms w i b /\ tree_run (only (xv_id target) w) t = Some (i, b') /\ Permutation b' b) /\
      ((forall T, exists w, fits ctors T w) -> x_missing s = true ->
         exists w, fits ctors (xv_ty target) w /\ forall p, In p arms -> no_match p w).
Proof. intros. now apply compile_correct. Qed.
Print Assumptions C22_tree_partial.

(** Arms over int or texto that begin with a literal: a value equal to none of the
    literals runs no arm, although the default arm [k => ...] matches it and the
    checker finds nothing missing. *)
Theorem C22_default_refuted :
  forall teq ctors inf (target : xvar) (p0 : xpat) (others : list xpat) dict next t s w,
    literal p0 = true -> ctors (xv_ty target) = None ->
    compile_iguala teq ctors inf target (p0 :: others) dict next = XOk t s ->
    (forall p, In p (p0 :: others) -> literal p = true -> no_match p w) ->
    tree_run (only (xv_id target) w) t = None.
Proof. intros. eapply default_never_runs; eauto. Qed.
Print Assumptions C22_default_refuted.

(** ** The theorems speak about programs *)

(** [uniao Lista: Fim, Par(int, Lista)] with the arms [Fim], [Par(a, Fim)],
    [Par(b, Par(c, r))]. *)
Definition lista : cty := CUni 0.
Definition no_int (t : cty) : option (list (dcons * list cty)) :=
  match t with CUni 0 => Some [(KVariant 0 0, []); (KVariant 0 1, [CPrim TInt; CUni 0])] | _ => None end.
Definition fim : xpat := QAdt 0 [].
Definition par (a b : xpat) : xpat := QAdt 1 [a; b].
Definition nome (n : String.string) : xpat := QBind (txt n).
Definition lista_arms : list xpat := [fim; par (nome "a") fim; par (nome "b") (par (nome "c") (nome "r"))].
Definition eq_ty (a b : cty) : bool := match a, b with CUni i, CUni j => Nat.eqb i j | CPrim TInt, CPrim TInt => true | _, _ => false end.

Lemma lista_ctors tag k : nth_error [(KVariant 0 0, []); (KVariant 0 1, [CPrim TInt; CUni 0])] tag = Some k ->
  (tag = 0 /\ k = (KVariant 0 0, []))%nat \/ (tag = 1 /\ k = (KVariant 0 1, [CPrim TInt; CUni 0]))%nat.
Proof. destruct tag as [| [| [| tag]]]; cbn; intros E; try discriminate; injection E as <-; auto. Qed.
(** Any set of arms over lists in which heads are names. *)
Lemma lista_way : forall d (S : xpat -> Prop),
  (forall p, S p -> (fix ok (d : nat) (p : xpat) : Prop :=
     match d with
     | O => is_bind p = true
     | Datatypes.S d => match p with QBind _ => True | QAdt 0 [] => True | QAdt 1 [QBind _; q] => ok d q | _ => False end
     end) d p) -> one_way no_int lista S.
Proof.
  induction d as [| d IH]; intros S H; [now apply OWNames |].
  eapply OWUnion; [reflexivity | | |].
  - intros tag k E. destruct (lista_ctors tag k E) as [[-> ->] | [-> ->]]; eexists; reflexivity.
  - intros p Sp. specialize (H p Sp). destruct p as [z | t | n | tag ps]; try easy. destruct tag as [| [| tag]].
    + destruct ps; [| easy]. eexists. split; reflexivity.
    + destruct ps as [| [] [| q [|]]]; try easy. eexists. split; reflexivity.
    + easy.
  - intros tag k E. destruct (lista_ctors tag k E) as [[-> ->] | [-> ->]].
    + exists O. split.
      * intros ps j q Sp Ej _. specialize (H _ Sp). cbn in H. destruct ps; [now destruct j | easy].
      * intros T' ET. discriminate.
    + exists 1%nat. split.
      * intros ps j q Sp Ej Nj. specialize (H _ Sp). cbn in H. destruct ps as [| [] [| q' [|]]]; try easy.
        destruct j as [| [| j]]; cbn in Ej; [injection Ej as <-; reflexivity | easy | now destruct j].
      * intros T' ET. cbn in ET. injection ET as <-. apply IH. intros q (ps & Sp & Eq). specialize (H _ Sp). cbn in H.
        destruct ps as [| [] [| q' [|]]]; try easy. cbn in Eq. injection Eq as <-. exact H.
Qed.
Example C22_lista_one_way : one_way no_int (xv_ty (mkXvar 0 (txt "l") lista)) (fun p => In p lista_arms).
Proof.
  apply (lista_way 3). intros p I. cbn [lista_arms In] in I. destruct I as [<- | [<- | [<- | []]]]; cbn; auto.
Qed.
Example C22_lista_inhabited : forall T, exists w, fits no_int T w.
Proof.
  intros T. destruct (no_int T) as [ks |] eqn:E; [| exists (MInt 0); now apply FitOther].
  exists (MVariant 0 []). destruct T as [| | | [|] | | |]; try discriminate. injection E as <-. eapply FitUnion; [reflexivity | reflexivity | constructor].
Qed.
(** Nothing is missing, and on [Par(5, Par(6, Fim))] the third arm runs. *)
Example C22_lista_runs :
  match compile_iguala eq_ty no_int (fun _ => false) (mkXvar 0 (txt "l") lista) lista_arms [] 1 with
  | XOk t s => x_missing s = false /\
      tree_run (only 0 (MVariant 1 [MInt 5; MVariant 1 [MInt 6; MVariant 0 []]])) t
      = Some (2%nat, [(txt "b", MInt 5); (txt "c", MInt 6); (txt "r", MVariant 0 [])])
  | _ => False
  end.
Proof. vm_compute. auto. Qed.
(** Without the last arm a pattern is missing. *)
Example C22_lista_missing :
  match compile_iguala eq_ty no_int (fun _ => false) (mkXvar 0 (txt "l") lista) [fim; par (nome "a") fim] [] 1 with
  | XOk t s => x_missing s = true
  | _ => False
  end.
Proof. vm_compute. reflexivity. Qed.
(** [1 => .., 2 => .., k => ..] on 3. *)
Example C22_default_meets :
  match compile_iguala eq_ty (fun _ => None) (fun _ => true) (mkXvar 0 (txt "n") (CPrim TInt)) [QInt 1; QInt 2; nome "k"] [] 1 with
  | XOk t s => x_missing s = false /\ tree_run (only 0 (MInt 3)) t = None /\ tree_run (only 0 (MInt 2)) t = Some (1%nat, []) /\
               matches (nome "k") (MInt 3) [(txt "k", MInt 3)]
  | _ => False
  end.
Proof. vm_compute. repeat split; constructor. Qed.
