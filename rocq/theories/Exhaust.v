(** Compiling the arms of an [iguala] into a decision tree:
    /repo/amanda/compiler/check/exhaustiveness.py.

    Rows, their lists of columns and the lists of bindings are Python objects
    that are shared between the cases of a tree and changed in place, so they are
    kept in a store here too. *)
From Verif Require Import Base Dec Bson Value Ast Types Syntax Sym.

(** A [VariableSymbol] under test.  [index] compares symbols by name and type
    (symbols/core.py:8-11); [id] tells objects apart. *)
Record xvar := mkXvar { xv_id : nat; xv_name : text; xv_ty : cty }.

(** Patterns after [check_pattern]; [QAdt] keeps the tag of the constructor. *)
Inductive xpat := QInt (z : Z) | QStr (t : text) | QBind (name : text) | QAdt (tag : nat) (args : list xpat).

(** [Column]: exhaustiveness.py:43-46. *)
Record col := mkCol { c_var : xvar; c_pat : xpat }.

(** [x_cols]: the lists of columns; [x_rows]: rows, each with its list and the
    number of its arm; [x_binds]: the bindings of each arm's [Body];
    [x_dict]: the symbols of the scope new variables are defined in; [x_new]: the
    variables made; [x_next]: the number of the next one; [x_reach], [x_missing]:
    [Diagnostics]. *)
Record xst := mkXst {
  x_cols : list (list col); x_rows : list (nat * nat); x_binds : list (list (text * nat));
  x_dict : list (text * nat); x_new : list xvar; x_next : nat; x_reach : list nat; x_missing : bool
}.

Inductive xres (A : Type) := XOk (a : A) (s : xst) | XCrash | XFuel.
Arguments XOk {A}. Arguments XCrash {A}. Arguments XFuel {A}.
Definition X (A : Type) : Type := xst -> xres A.
Definition xret {A} (a : A) : X A := fun s => XOk a s.
Definition xbind {A B} (m : X A) (f : A -> X B) : X B :=
  fun s => match m s with XOk a s' => f a s' | XCrash => XCrash | XFuel => XFuel end.
Declare Scope exh_scope.
Notation "x <- m ;; k" := (xbind m (fun x => k)) (at level 61, m at next level, right associativity) : exh_scope.
Notation "m ;;; k" := (xbind m (fun _ => k)) (at level 61, right associativity) : exh_scope.
Local Open Scope exh_scope.
Definition xcrash {A} : X A := fun _ => XCrash.
Definition xget {A} (f : xst -> A) : X A := fun s => XOk (f s) s.
Definition xmust {A} (o : option A) : X A := match o with Some a => xret a | None => xcrash end.
Fixpoint mapx {A B} (f : A -> X B) (l : list A) : X (list B) :=
  match l with [] => xret [] | x :: r => y <- f x ;; ys <- mapx f r ;; xret (y :: ys) end.

Definition cols_of (s : xst) (row : nat) : list col :=
  match nth_error (x_rows s) row with Some (c, _) => nth c (x_cols s) [] | None => [] end.
Definition arm_of (s : xst) (row : nat) : nat := match nth_error (x_rows s) row with Some (_, a) => a | None => O end.
Definition set_cols (s : xst) l := mkXst l (x_rows s) (x_binds s) (x_dict s) (x_new s) (x_next s) (x_reach s) (x_missing s).
Definition set_rows (s : xst) l := mkXst (x_cols s) l (x_binds s) (x_dict s) (x_new s) (x_next s) (x_reach s) (x_missing s).
Definition set_binds (s : xst) l := mkXst (x_cols s) (x_rows s) l (x_dict s) (x_new s) (x_next s) (x_reach s) (x_missing s).

Section Compile.
(** [==] on types; the constructors of a type with finitely many
    ([has_finite_constructors], [get_constructors]); whether a type is int or
    texto. *)
Variable teq : cty -> cty -> bool.
Variable constructors : cty -> option (list (dcons * list cty)).
Variable infinite_ok : cty -> bool.

Definition var_eqb (a b : xvar) : bool := text_eqb (xv_name a) (xv_name b) && teq (xv_ty a) (xv_ty b).

(** [Row.remove_column]: exhaustiveness.py:56-61. *)
Fixpoint pop_col (v : xvar) (l : list col) : option (col * list col) :=
  match l with
  | [] => None
  | c :: r => if var_eqb (c_var c) v then Some (c, r)
              else match pop_col v r with Some (x, r') => Some (x, c :: r') | None => None end
  end.
Definition remove_column (row : nat) (v : xvar) : X (option col) :=
  fun s => match nth_error (x_rows s) row with
           | None => XCrash
           | Some (c, _) => match pop_col v (nth c (x_cols s) []) with
                            | Some (k, rest) => XOk (Some k) (set_cols s (upd (x_cols s) c (fun _ => rest)))
                            | None => XOk None s
                            end
           end.

(** [move_variable_patterns]: exhaustiveness.py:450-459.  The row gets a list of
    columns of its own. *)
Definition is_bind (p : xpat) : bool := match p with QBind _ => true | _ => false end.
Definition binds_of (l : list col) : list (text * nat) :=
  flat_map (fun c => match c_pat c with QBind n => [(n, xv_id (c_var c))] | _ => [] end) l.
Definition move_patterns (row : nat) : X unit :=
  fun s =>
    let l := cols_of s row in
    let s1 := set_binds s (upd (x_binds s) (arm_of s row) (fun b => b ++ binds_of l)) in
    let n := List.length (x_cols s) in
    let s2 := set_cols s1 (x_cols s1 ++ [filter (fun c => negb (is_bind (c_pat c))) l]) in
    XOk tt (set_rows s2 (upd (x_rows s2) row (fun r => (n, snd r)))).

(** [branch_variable]: exhaustiveness.py:463-473.  [max] keeps the first of the
    largest. *)
Definition uses (s : xst) (rows : list nat) (v : nat) : nat :=
  List.length (filter (fun c => Nat.eqb (xv_id (c_var c)) v) (flat_map (cols_of s) rows)).
Definition branch_variable (rows : list nat) : X xvar :=
  fun s => match rows with
           | [] => XCrash
           | r :: _ => match cols_of s r with
                       | [] => XCrash
                       | c :: l => XOk (fold_left (fun best c => if (uses s rows (xv_id best) <? uses s rows (xv_id (c_var c)))%nat
                                                                 then c_var c else best) l (c_var c)) s
                       end
           end.

(** [Scope.new_unique_var], [new_variables]: symbols/core.py:161-164,
    exhaustiveness.py:478-482. *)
Definition new_variable (t : cty) : X xvar :=
  fun s => let n := txt "_r" ++ dec_nat (List.length (x_dict s)) ++ txt "_" in
           let v := mkXvar (x_next s) n t in
           XOk v (mkXst (x_cols s) (x_rows s) (x_binds s) (assoc_set (x_dict s) n (x_next s)) (x_new s ++ [v]) (S (x_next s))
                        (x_reach s) (x_missing s)).

(** The key and constructor of a pattern with infinitely many alternatives:
    exhaustiveness.py:345-357. *)
Definition lit_cons (p : xpat) : option dcons :=
  match p with QInt z => Some (KInt z) | QStr t => Some (KStr t) | _ => None end.
Definition lit_eqb (a b : dcons) : bool :=
  match a, b with KInt x, KInt y => (x =? y)%Z | KStr x, KStr y => text_eqb x y | _, _ => false end.
Fixpoint lookup_key (k : dcons) (l : list (dcons * nat)) : option nat :=
  match l with [] => None | (k', i) :: r => if lit_eqb k' k then Some i else lookup_key k r end.
Fixpoint set_key (k : dcons) (v : nat) (l : list (dcons * nat)) : list (dcons * nat) :=
  match l with [] => [(k, v)] | (k', i) :: r => if lit_eqb k' k then (k', v) :: r else (k', i) :: set_key k v r end.

(** The loop of [compile_infinite_cases]: exhaustiveness.py:341-365.  The index
    found for a key is used as a truth value, so index 0 counts as not found. *)
Fixpoint split_infinite (rows : list nat) (v : xvar) (raw : list (dcons * list nat)) (tested : list (dcons * nat))
    (fb : list nat) : X (list (dcons * list nat) * list nat) :=
  match rows with
  | [] => xret (raw, fb)
  | row :: rest =>
      c <- remove_column row v ;;
      match c with
      | None => split_infinite rest v raw tested (fb ++ [row])
      | Some c =>
          k <- xmust (lit_cons (c_pat c)) ;;
          match lookup_key k tested with
          | Some (S i) => split_infinite rest v (upd raw (S i) (fun e => (fst e, snd e ++ [row]))) tested fb
          | _ => split_infinite rest v (raw ++ [(k, [row])]) (set_key k (List.length raw) tested) fb
          end
      end
  end.

(** The loop of [compile_constructor_cases]: exhaustiveness.py:410-424.  The new
    [Row] and the old one share the list of columns that is appended to. *)
Fixpoint zip_cols (vs : list xvar) (ps : list xpat) : list col :=
  match vs, ps with v :: vs, p :: ps => mkCol v p :: zip_cols vs ps | _, _ => [] end.
Fixpoint split_constructors (rows : list nat) (v : xvar) (cases : list (dcons * list xvar * list nat))
    : X (list (dcons * list xvar * list nat)) :=
  match rows with
  | [] => xret cases
  | row :: rest =>
      c <- remove_column row v ;;
      match c with
      | None => split_constructors rest v (map (fun e => (fst e, snd e ++ [row])) cases)
      | Some c =>
          match c_pat c with
          | QAdt tag args =>
              e <- xmust (nth_error cases tag) ;;
              new <- (fun s => match nth_error (x_rows s) row with
                               | None => XCrash
                               | Some (cs, arm) =>
                                   let s1 := set_cols s (upd (x_cols s) cs (fun l => l ++ zip_cols (snd (fst e)) args)) in
                                   XOk (List.length (x_rows s)) (set_rows s1 (x_rows s1 ++ [(cs, arm)]))
                               end) ;;
              split_constructors rest v (upd cases tag (fun e => (fst e, snd e ++ [new])))
          | _ => split_constructors rest v cases
          end
      end
  end.

Definition mark_missing : X unit :=
  fun s => XOk tt (mkXst (x_cols s) (x_rows s) (x_binds s) (x_dict s) (x_new s) (x_next s) (x_reach s) true).
Definition mark_reached (a : nat) : X unit :=
  fun s => XOk tt (mkXst (x_cols s) (x_rows s) (x_binds s) (x_dict s) (x_new s) (x_next s) (x_reach s ++ [a]) (x_missing s)).

(** [_compile_rows]: exhaustiveness.py:276-327.  Arms have no guards.  The
    bindings of a success are filled in at the end ([finish]). *)
Fixpoint compile_rows (fuel : nat) (rows : list nat) : X dtree :=
  match fuel with
  | O => fun _ => XFuel
  | S fuel =>
      match rows with
      | [] => mark_missing ;;; xret DFail
      | r0 :: _ =>
          mapx move_patterns rows ;;;
          cs <- xget (fun s => cols_of s r0) ;;
          match cs with
          | [] => a <- xget (fun s => arm_of s r0) ;; mark_reached a ;;; xret (DSucc a [])
          | _ =>
              v <- branch_variable rows ;;
              match constructors (xv_ty v) with
              | None =>
                  if infinite_ok (xv_ty v) then
                    p <- split_infinite rows v [] [] [] ;;
                    let '(raw, fb) := p in
                    cases <- mapx (fun e => t <- compile_rows fuel (snd e ++ fb) ;; xret (fst e, @nil nat, t)) raw ;;
                    f <- compile_rows fuel fb ;;
                    xret (DSwitch (xv_id v) cases (Some f))
                  else xcrash
              | Some ks =>
                  cases <- mapx (fun k => vs <- mapx new_variable (snd k) ;; xret (fst k, vs, @nil nat)) ks ;;
                  cases <- split_constructors rows v cases ;;
                  cases <- mapx (fun e => t <- compile_rows fuel (snd e) ;;
                                          xret (fst (fst e), map xv_id (snd (fst e)), t)) cases ;;
                  xret (DSwitch (xv_id v) cases None)
              end
          end
      end
  end.

(** The tree with the bindings its leaves refer to at the end. *)
Fixpoint finish (b : list (list (text * nat))) (t : dtree) : dtree :=
  match t with
  | DFail => DFail
  | DSucc a _ => DSucc a (nth a b [])
  | DSwitch v cases fb =>
      DSwitch v (map (fun e => (fst e, finish b (snd e))) cases)
              (match fb with Some f => Some (finish b f) | None => None end)
  end.

Fixpoint pat_size (p : xpat) : nat :=
  match p with QAdt _ args => S (fold_right (fun p n => pat_size p + n)%nat O args) | _ => 1%nat end.

(** [_into_rows] and [compile]: exhaustiveness.py:255-271. [dict], [next]: the
    symbols of the scope and the next free number. *)
Definition compile_iguala (target : xvar) (arms : list xpat) (dict : list (text * nat)) (next : nat)
    : xres dtree :=
  let n := List.length arms in
  let s := mkXst (map (fun p => [mkCol target p]) arms) (map (fun i => (i, i)) (seq 0 n)) (repeat [] n)
                 dict [] next [] false in
  match compile_rows (2 + fold_right (fun p n => pat_size p + n)%nat O arms) (seq 0 n) s with
  | XOk t s' => XOk (finish (x_binds s') t) s'
  | XCrash => XCrash
  | XFuel => XFuel
  end.

(** [missing_patterns] raises on a test against a text: exhaustiveness.py:199-219. *)
Fixpoint has_str (t : dtree) : bool :=
  match t with
  | DSwitch _ cases fb =>
      existsb (fun e => match fst (fst e) with KStr _ => true | _ => false end || has_str (snd e)) cases
      || match fb with Some f => has_str f | None => false end
  | _ => false
  end.

(** [declare_block_symbols] visits the leaves under cases, not those under
    fallbacks: exhaustiveness.py:230-243. *)
Fixpoint declared (t : dtree) : list (nat * list (text * nat)) :=
  match t with
  | DFail => []
  | DSucc a b => [(a, b)]
  | DSwitch _ cases _ => flat_map (fun e => declared (snd e)) cases
  end.
End Compile.
