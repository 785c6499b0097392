(** Facts about the compilation of an [iguala] into a decision tree. *)
From Verif Require Import Base Bson Types Sym Exhaust Spec_Match.
From Coq Require Import Lia PeanoNat Permutation.

Lemma nth_upd {A} (l : list A) : forall i f j d,
  nth j (upd l i f) d = if Nat.eqb j i then (if (i <? List.length l)%nat then f (nth i l d) else d) else nth j l d.
Proof.
  induction l as [| x l IH]; intros i f j d; cbn [upd nth List.length].
  - destruct i, j; cbn; try reflexivity; destruct (Nat.eqb j i); reflexivity.
  - destruct i as [| i]; destruct j as [| j]; cbn [nth Nat.eqb]; try reflexivity.
    rewrite IH. change (S i <? S (List.length l))%nat with (i <? List.length l)%nat. reflexivity.
Qed.
Lemma upd_length {A} (l : list A) : forall i f, List.length (upd l i f) = List.length l.
Proof. induction l as [| x l IH]; intros [| i] f; cbn; auto. Qed.
Lemma nth_error_upd {A} (l : list A) : forall i f j,
  nth_error (upd l i f) j = if Nat.eqb j i then option_map f (nth_error l j) else nth_error l j.
Proof.
  induction l as [| x l IH]; intros i f j; cbn [upd].
  - destruct i, j; cbn; try reflexivity; destruct (Nat.eqb j i); reflexivity.
  - destruct i as [| i]; destruct j as [| j]; cbn; try reflexivity. apply IH.
Qed.

Definition wfx (s : xst) : Prop :=
  Forall (fun r => (fst r < List.length (x_cols s))%nat /\ (snd r < List.length (x_binds s))%nat) (x_rows s).
Definition bnd (s : xst) (a : nat) : list (text * nat) := nth a (x_binds s) [].
Definition unbound (l : list col) : list col := filter (fun c => negb (is_bind (c_pat c))) l.
Definition cidx (s : xst) (r : nat) : nat := match nth_error (x_rows s) r with Some (c, _) => c | None => O end.
(** Everything but rows, columns and bindings. *)
Definition rest (s : xst) := (x_dict s, x_new s, x_next s, x_reach s, x_missing s).

Lemma wfx_row s r c a : wfx s -> nth_error (x_rows s) r = Some (c, a) -> (c < List.length (x_cols s))%nat /\ (a < List.length (x_binds s))%nat.
Proof. intros H E. unfold wfx in H. rewrite Forall_forall in H. apply (H (c, a)), (nth_error_In _ r), E. Qed.
Lemma wfx_nth s : (forall r c a, nth_error (x_rows s) r = Some (c, a) -> (c < List.length (x_cols s))%nat /\ (a < List.length (x_binds s))%nat) -> wfx s.
Proof. intros H. apply Forall_forall. intros [c a] I. apply In_nth_error in I. destruct I as [r I]. exact (H r c a I). Qed.

Lemma move_spec s row : wfx s -> (row < List.length (x_rows s))%nat ->
  exists s', move_patterns row s = XOk tt s' /\ wfx s' /\ List.length (x_rows s') = List.length (x_rows s) /\
    List.length (x_binds s') = List.length (x_binds s) /\
    (forall r, arm_of s' r = arm_of s r) /\
    (forall r, cols_of s' r = if Nat.eqb r row then unbound (cols_of s row) else cols_of s r) /\
    (forall a, bnd s' a = bnd s a ++ (if Nat.eqb a (arm_of s row) then binds_of (cols_of s row) else [])) /\
    rest s' = rest s /\ List.length (x_cols s') = S (List.length (x_cols s)) /\
    (forall r, cidx s' r = if Nat.eqb r row then List.length (x_cols s) else cidx s r).
Proof.
  intros W L. destruct (nth_error (x_rows s) row) as [[c a] |] eqn:E; [| apply nth_error_None in E; lia].
  destruct (wfx_row _ _ _ _ W E) as [Lc La].
  eexists. split; [reflexivity |]. split; [| split; [| split; [| split; [| split; [| split; [| split; [| split]]]]]]].
  - apply wfx_nth. intros r c' a' H. cbn in H |- *. rewrite nth_error_upd in H. rewrite app_length, upd_length. cbn.
    destruct (Nat.eqb r row) eqn:Q.
    + destruct (nth_error (x_rows s) r) as [[c1 a1] |] eqn:F; [| discriminate]. cbn in H. injection H as <- <-.
      pose proof (wfx_row _ _ _ _ W F). lia.
    + pose proof (wfx_row _ _ _ _ W H). lia.
  - cbn. apply upd_length.
  - cbn. apply upd_length.
  - intros r. unfold arm_of. cbn. rewrite nth_error_upd. destruct (Nat.eqb r row); [| reflexivity].
    destruct (nth_error (x_rows s) r) as [[? ?] |]; reflexivity.
  - intros r. unfold cols_of at 1. cbn. rewrite nth_error_upd. destruct (Nat.eqb r row) eqn:Q.
    + apply Nat.eqb_eq in Q as ->. rewrite E. cbn. rewrite app_nth2 by lia. rewrite Nat.sub_diag. reflexivity.
    + unfold cols_of. destruct (nth_error (x_rows s) r) as [[c1 a1] |] eqn:F; [| reflexivity].
      pose proof (wfx_row _ _ _ _ W F). rewrite app_nth1 by lia. reflexivity.
  - intros b. unfold bnd. cbn. rewrite nth_upd. unfold arm_of. rewrite E. destruct (Nat.eqb b a) eqn:Q.
    + apply Nat.eqb_eq in Q as ->. replace (a <? List.length (x_binds s))%nat with true by (symmetry; apply Nat.ltb_lt; lia). reflexivity.
    + now rewrite app_nil_r.
  - reflexivity.
  - cbn. rewrite app_length. cbn. lia.
  - intros r. unfold cidx. cbn. rewrite nth_error_upd. destruct (Nat.eqb r row) eqn:Q; [| reflexivity].
    apply Nat.eqb_eq in Q as ->. now rewrite E.
Qed.

(** All the rows of a list, one after the other. *)
Definition armbinds (s : xst) (rows : list nat) (a : nat) : list (text * nat) :=
  flat_map (fun r => if Nat.eqb a (arm_of s r) then binds_of (cols_of s r) else []) rows.
Lemma move_all rows : forall s, wfx s -> NoDup rows -> Forall (fun r => r < List.length (x_rows s))%nat rows ->
  exists u s', mapx move_patterns rows s = XOk u s' /\ wfx s' /\ List.length (x_rows s') = List.length (x_rows s) /\
    List.length (x_binds s') = List.length (x_binds s) /\
    (forall r, arm_of s' r = arm_of s r) /\
    (forall r, In r rows -> cols_of s' r = unbound (cols_of s r)) /\
    (forall r, ~ In r rows -> cols_of s' r = cols_of s r) /\
    (forall a, bnd s' a = bnd s a ++ armbinds s rows a) /\
    rest s' = rest s /\
    (forall r, In r rows -> (List.length (x_cols s) <= cidx s' r)%nat) /\ (List.length (x_cols s) <= List.length (x_cols s'))%nat /\
    (forall r, ~ In r rows -> cidx s' r = cidx s r) /\
    (forall r r', In r rows -> In r' rows -> r <> r' -> cidx s' r <> cidx s' r').
Proof.
  induction rows as [| row rows IH]; intros s W N F.
  - exists [], s. cbn. repeat split; auto; try easy. intros a. now rewrite app_nil_r.
  - inversion F as [| x y Hr Hrs]. subst. inversion N as [| x y Hn Hd]. subst.
    destruct (move_spec s row W Hr) as (s1 & E1 & W1 & L1 & B1 & A1 & C1 & D1 & R1 & K1 & I1).
    destruct (IH s1 W1 Hd) as (u & s2 & E2 & W2 & L2 & B2 & A2 & C2 & C2' & D2 & R2 & G2 & K2 & I2 & J2); [now rewrite L1 |].
    exists (tt :: u), s2. cbn [mapx]. unfold xbind. rewrite E1, E2. split; [reflexivity |]. split; [exact W2 |].
    split; [congruence |]. split; [congruence |]. split; [intros r; now rewrite A2, A1 |].
    assert (X : forall r, In r rows -> cols_of s1 r = cols_of s r).
    { intros r I. rewrite C1. destruct (Nat.eqb r row) eqn:Q; [| reflexivity]. apply Nat.eqb_eq in Q as ->. easy. }
    split; [| split; [| split; [| split; [| split; [| split; [| split]]]]]].
    + intros r [<- | I].
      * rewrite C2' by assumption. rewrite C1, Nat.eqb_refl. reflexivity.
      * rewrite C2, X by assumption. reflexivity.
    + intros r I. rewrite C2' by (intros H; apply I; now right). rewrite C1.
      destruct (Nat.eqb r row) eqn:Q; [| reflexivity]. apply Nat.eqb_eq in Q as ->. exfalso. apply I. now left.
    + intros a. rewrite D2, D1. rewrite <- app_assoc. f_equal. unfold armbinds. cbn [flat_map]. f_equal.
      clear - X A1. induction rows as [| r rows IH]; [reflexivity |]. cbn [flat_map]. rewrite A1, X by now left.
      f_equal. apply IH. intros r' I. apply X. now right.
    + congruence.
    + intros r [<- | I]; [rewrite I2, I1, Nat.eqb_refl by assumption; lia | specialize (G2 r I); lia].
    + lia.
    + intros r I. rewrite I2, I1 by (intros H; apply I; now right). destruct (Nat.eqb r row) eqn:Q; [| reflexivity].
      apply Nat.eqb_eq in Q as ->. exfalso. apply I. now left.
    + assert (Z : forall r, In r rows -> cidx s2 r <> cidx s2 row).
      { intros r I. rewrite (I2 row Hn), I1, Nat.eqb_refl. specialize (G2 r I). lia. }
      intros r r' [<- | I] [<- | I'] Dn; [easy | intros H; exact (Z _ I' (eq_sym H)) | now apply Z | now apply J2].
Qed.

Lemma wfx_cidx s r : wfx s -> (r < List.length (x_rows s))%nat -> (cidx s r < List.length (x_cols s))%nat.
Proof.
  intros W L. unfold cidx. destruct (nth_error (x_rows s) r) as [[c a] |] eqn:E; [| apply nth_error_None in E; lia].
  exact (proj1 (wfx_row _ _ _ _ W E)).
Qed.

(** ** Matching the columns of a row *)

Inductive cmatch (rho : menv) : list col -> list (text * mval) -> Prop :=
| CMNil : cmatch rho [] []
| CMCons c l v b bs : rho (xv_id (c_var c)) = Some v -> matches (c_pat c) v b -> cmatch rho l bs -> cmatch rho (c :: l) (b ++ bs).
Definition known (rho : menv) (l : list col) : Prop := Forall (fun c => rho (xv_id (c_var c)) <> None) l.

Lemma values_app rho a : forall b, values rho (a ++ b) =
  match values rho a, values rho b with Some x, Some y => Some (x ++ y) | _, _ => None end.
Proof.
  induction a as [| [n i] a IH]; intros b; cbn [values app]; [now destruct (values rho b) |].
  rewrite IH. destruct (rho i); [| reflexivity]. destruct (values rho a); [| reflexivity]. now destruct (values rho b).
Qed.
Lemma values_ext rho rho' b : Forall (fun x => rho' (snd x) = rho (snd x)) b -> values rho' b = values rho b.
Proof. induction 1 as [| [n i] b E _ IH]; [reflexivity |]. cbn in *. now rewrite E, IH. Qed.

(** The names of a row, and the rest of its columns. *)
Lemma cmatch_split rho l b : cmatch rho l b ->
  exists lb bu, values rho (binds_of l) = Some lb /\ cmatch rho (unbound l) bu /\ Permutation b (lb ++ bu).
Proof.
  induction 1 as [| c l v b bs E M C IH]; [exists [], []; repeat split; constructor |].
  destruct IH as (lb & bu & V & U & P). unfold binds_of, unbound. cbn [flat_map filter].
  destruct (c_pat c) as [z | t | n | tag args] eqn:Q; cbn [is_bind negb app].
  4: { exists lb, (b ++ bu). split; [exact V |]. split.
       - econstructor; [exact E | now rewrite Q |]. exact U.
       - etransitivity; [apply Permutation_app_head, P |]. rewrite !app_assoc. apply Permutation_app_tail, Permutation_app_comm. }
  3: { inversion M. subst. exists ((n, v) :: lb), bu. split; [| split; [exact U |]].
       - cbn [values]. rewrite E. unfold binds_of in V. now rewrite V.
       - cbn. now constructor. }
  all: exists lb, (b ++ bu); split; [exact V |]; split; [econstructor; [exact E | now rewrite Q |]; exact U |];
       etransitivity; [apply Permutation_app_head, P |]; rewrite !app_assoc; apply Permutation_app_tail, Permutation_app_comm.
Qed.
Lemma cmatch_join rho l bu : known rho l -> cmatch rho (unbound l) bu ->
  exists lb b, values rho (binds_of l) = Some lb /\ cmatch rho l b /\ Permutation b (lb ++ bu).
Proof.
  intros K. revert bu. induction K as [| c l E K IH]; intros bu C.
  - inversion C. subst. exists [], []. repeat split; constructor.
  - destruct (rho (xv_id (c_var c))) as [v |] eqn:R; [| easy].
    unfold binds_of, unbound in *. cbn [flat_map filter] in *.
    destruct (c_pat c) as [z | t | n | tag args] eqn:Q; cbn [is_bind negb app] in *.
    3: { destruct (IH _ C) as (lb & b & V & M & P). exists ((n, v) :: lb), ([(n, v)] ++ b). split; [| split].
         - cbn [values]. rewrite R, V. reflexivity.
         - econstructor; [exact R | rewrite Q; constructor | exact M].
         - cbn. now constructor. }
    all: inversion C as [| c' l' v' b1 bs E1 M1 C1]; subst; destruct (IH _ C1) as (lb & b & V & M & P);
         exists lb, (b1 ++ b); split; [exact V |]; split; [econstructor; [exact E1 | exact M1 | exact M] |];
         etransitivity; [apply Permutation_app_head, P |]; rewrite !app_assoc; apply Permutation_app_tail, Permutation_app_comm.
Qed.

Lemma bind_args_other ids : forall rho vs j, ~ In j ids -> bind_args rho ids vs j = rho j.
Proof.
  induction ids as [| i ids IH]; intros rho vs j N; destruct vs as [| v vs]; cbn [bind_args]; try reflexivity.
  rewrite IH by (intros H; apply N; now right). destruct (Nat.eqb j i) eqn:Q; [| reflexivity].
  apply Nat.eqb_eq in Q as ->. exfalso. apply N. now left.
Qed.
Lemma bind_args_nth ids : forall rho vs k i v, NoDup ids -> nth_error ids k = Some i -> nth_error vs k = Some v ->
  bind_args rho ids vs i = Some v.
Proof.
  induction ids as [| i0 ids IH]; intros rho vs k i v N E F; [now destruct k |].
  inversion N as [| x y Hn Hd]. subst. destruct vs as [| v0 vs]; [now destruct k |]. destruct k as [| k]; cbn in E, F |- *.
  - injection E as ->. injection F as ->. rewrite bind_args_other by assumption. now rewrite Nat.eqb_refl.
  - exact (IH _ _ _ _ _ Hd E F).
Qed.

(** The columns a variant's patterns become match what the patterns match. *)
Lemma zip_cmatch rho' : forall vars args vs b, List.length vars = List.length args ->
  (forall k x v, nth_error vars k = Some x -> nth_error vs k = Some v -> rho' (xv_id x) = Some v) ->
  List.length vs = List.length args ->
  (cmatch rho' (zip_cols vars args) b <-> all_match args vs b).
Proof.
  induction vars as [| x vars IH]; intros [| p args] [| v vs] b L H L'; try discriminate; cbn [zip_cols].
  - split; intros X; inversion X; subst; constructor.
  - assert (Hx : rho' (xv_id x) = Some v) by (apply (H O); reflexivity).
    assert (Hr : forall k y w, nth_error vars k = Some y -> nth_error vs k = Some w -> rho' (xv_id y) = Some w)
      by (intros k y w A B; exact (H (S k) y w A B)).
    injection L as L. injection L' as L'.
    split; intros X; inversion X; subst.
    + cbn in *. rewrite Hx in H2. injection H2 as <-. constructor; [assumption |]. now apply (IH args vs).
    + econstructor; [exact Hx | assumption |]. now apply (IH args vs).
Qed.

(** ** Sorting rows by variant *)

Definition compat (s : xst) (tag : nat) (r : nat) : bool :=
  match cols_of s r with [] => true | c :: _ => match c_pat c with QAdt t _ => Nat.eqb t tag | _ => false end end.
Definition link (s s' : xst) (vars : list xvar) (tag : nat) (r r' : nat) : Prop :=
  arm_of s' r' = arm_of s r /\ (r' < List.length (x_rows s'))%nat /\
  ((cols_of s r = [] /\ r' = r /\ cols_of s' r' = []) \/
   ((List.length (x_rows s) <= r')%nat /\ exists c args, cols_of s r = [c] /\ c_pat c = QAdt tag args /\ cols_of s' r' = zip_cols vars args)).

Lemma filter_ext_in {A} (f g : A -> bool) l : (forall x, In x l -> f x = g x) -> filter f l = filter g l.
Proof.
  induction l as [| x l IH]; intros H; [reflexivity |]. cbn. rewrite (H x) by now left. rewrite IH by (intros; apply H; now right). reflexivity.
Qed.
Lemma f2_in {A B} (P Q : A -> B -> Prop) l l' : Forall2 P l l' -> (forall x y, In x l -> P x y -> Q x y) -> Forall2 Q l l'.
Proof. induction 1 as [| x y l l' H F IH]; intros K; constructor; [apply K; [now left | assumption] | apply IH; intros; apply K; [now right | assumption]]. Qed.

Lemma cols_nth s r c a : nth_error (x_rows s) r = Some (c, a) -> cols_of s r = nth c (x_cols s) [].
Proof. intros E. unfold cols_of. now rewrite E. Qed.

Lemma split_spec teq v : var_eqb teq v v = true -> forall todo s cases,
  wfx s -> NoDup todo -> Forall (fun r => r < List.length (x_rows s))%nat todo ->
  (forall r, In r todo -> cols_of s r = [] \/
     exists tag args e, cols_of s r = [mkCol v (QAdt tag args)] /\ nth_error cases tag = Some e) ->
  (forall r r', In r todo -> (r' < List.length (x_rows s))%nat -> r' <> r -> cidx s r' <> cidx s r) ->
  exists cases' s', split_constructors teq todo v cases s = XOk cases' s' /\ wfx s' /\
    (List.length (x_rows s) <= List.length (x_rows s'))%nat /\ x_binds s' = x_binds s /\ rest s' = rest s /\
    (forall r, (r < List.length (x_rows s))%nat -> arm_of s' r = arm_of s r) /\
    (forall r, (r < List.length (x_rows s))%nat -> ~ In r todo -> cols_of s' r = cols_of s r) /\
    (forall r, In r todo -> cols_of s r = [] -> cols_of s' r = []) /\
    List.length cases' = List.length cases /\
    (forall tag e, nth_error cases tag = Some e ->
       exists L, nth_error cases' tag = Some (fst e, snd e ++ L) /\
                 Forall2 (link s s' (snd (fst e)) tag) (filter (compat s tag) todo) L).
Proof.
  intros Rv. induction todo as [| row todo IH]; intros s cases W N F Sh Sep.
  - exists cases, s. cbn. repeat split; auto; try easy. intros tag e E. exists []. rewrite app_nil_r. split; [now destruct e | constructor].
  - inversion F as [| x y Hr Hrs]. subst. inversion N as [| x y Hn Hd]. subst.
    destruct (nth_error (x_rows s) row) as [[c a] |] eqn:E; [| apply nth_error_None in E; lia].
    destruct (wfx_row _ _ _ _ W E) as [Lc La]. pose proof (cols_nth _ _ _ _ E) as Cn.
    destruct (Sh row (or_introl eq_refl)) as [Emp | (tag & args & e & One & Ec)].
    + (* shared by all the cases *)
      assert (Q : remove_column teq row v s = XOk None s).
      { unfold remove_column. rewrite E, <- Cn, Emp. reflexivity. }
      destruct (IH s (map (fun e => (fst e, snd e ++ [row])) cases) W Hd Hrs) as
          (cases' & s' & E' & W' & L' & B' & R' & A' & C' & Z' & Len & K).
      { intros r I. destruct (Sh r (or_intror I)) as [H | (tag & args & e & H & He)]; [now left |]. right. exists tag, args.
        eexists. split; [exact H |]. rewrite nth_error_map, He. reflexivity. }
      { intros r r' I. exact (Sep r r' (or_intror I)). }
      exists cases', s'. split; [| split; [exact W' | split; [exact L' | split; [exact B' | split; [exact R' | split; [exact A' |]]]]]].
      { cbn [split_constructors]. unfold xbind at 1. rewrite Q. exact E'. }
      assert (Zr : cols_of s' row = []) by (rewrite (C' row Hr Hn); exact Emp).
      split; [| split; [| split]].
      * intros r Lr I. apply C'; [exact Lr |]. intros H. apply I. now right.
      * intros r [<- | I] H; [exact Zr |]. now apply Z'.
      * rewrite Len. apply map_length.
      * intros t e Et. destruct (K t (fst e, snd e ++ [row])) as (L & EL & FL); [rewrite nth_error_map, Et; reflexivity |].
        exists (row :: L). cbn [fst snd] in EL. rewrite <- app_assoc in EL. split; [exact EL |].
        cbn [filter]. unfold compat at 1. rewrite Emp. constructor; [| exact FL].
        split; [now apply A' |]. split; [lia |]. left. now repeat split.
    + (* goes to one case *)
      pose (s1 := set_cols s (upd (x_cols s) c (fun _ => []))).
      pose (s2 := set_cols s1 (upd (x_cols s1) c (fun l => l ++ zip_cols (snd (fst e)) args))).
      pose (s3 := set_rows s2 (x_rows s2 ++ [(c, a)])).
      assert (Q : remove_column teq row v s = XOk (Some (mkCol v (QAdt tag args))) s1).
      { unfold remove_column. rewrite E, <- Cn, One. cbn. rewrite Rv. reflexivity. }
      assert (Lrows : List.length (x_rows s3) = S (List.length (x_rows s))) by (cbn; rewrite app_length; cbn; lia).
      assert (Lcols : List.length (x_cols s3) = List.length (x_cols s)) by (cbn; rewrite !upd_length; reflexivity).
      assert (Xold : forall r, (r < List.length (x_rows s))%nat -> nth_error (x_rows s3) r = nth_error (x_rows s) r).
      { intros r L. cbn. now rewrite nth_error_app1. }
      assert (Xnew : nth_error (x_rows s3) (List.length (x_rows s)) = Some (c, a)).
      { cbn. rewrite nth_error_app2 by lia. now rewrite Nat.sub_diag. }
      assert (Xcol : forall j, nth j (x_cols s3) [] = if Nat.eqb j c then zip_cols (snd (fst e)) args else nth j (x_cols s) []).
      { intros j. cbn. rewrite nth_upd, upd_length. replace (c <? List.length (x_cols s))%nat with true by (symmetry; apply Nat.ltb_lt; lia).
        destruct (Nat.eqb j c) eqn:J; [| rewrite nth_upd, J; reflexivity].
        rewrite nth_upd, Nat.eqb_refl. replace (c <? List.length (x_cols s))%nat with true by (symmetry; apply Nat.ltb_lt; lia). reflexivity. }
      assert (Cr : cidx s row = c) by (unfold cidx; now rewrite E).
      assert (Xcols : forall r, (r < List.length (x_rows s))%nat -> r <> row -> cols_of s3 r = cols_of s r).
      { intros r L D. unfold cols_of. rewrite (Xold r L). destruct (nth_error (x_rows s) r) as [[c1 a1] |] eqn:G; [| reflexivity].
        rewrite Xcol. destruct (Nat.eqb c1 c) eqn:J; [| reflexivity]. exfalso. apply Nat.eqb_eq in J as ->.
        apply (Sep row r (or_introl eq_refl) L D). rewrite Cr. unfold cidx. now rewrite G. }
      assert (W3 : wfx s3).
      { apply wfx_nth. intros r c1 a1 G. rewrite Lcols. change (x_binds s3) with (x_binds s).
        destruct (Nat.lt_ge_cases r (List.length (x_rows s))) as [H | H].
        - rewrite (Xold r H) in G. exact (wfx_row _ _ _ _ W G).
        - assert (r = List.length (x_rows s)) as ->.
          { assert (r < List.length (x_rows s3))%nat by (apply nth_error_Some; congruence). lia. }
          rewrite Xnew in G. injection G as <- <-. auto. }
      assert (Xarm : forall r, (r < List.length (x_rows s))%nat -> arm_of s3 r = arm_of s r) by (intros r L; unfold arm_of; now rewrite Xold).
      assert (Xin : forall r, In r todo -> (r < List.length (x_rows s))%nat /\ r <> row).
      { intros r I. split; [rewrite Forall_forall in Hrs; now apply Hrs | intros ->; easy]. }
      destruct (IH s3 (upd cases tag (fun e => (fst e, snd e ++ [List.length (x_rows s)])))) as
          (cases' & s' & E' & W' & L' & B' & R' & A' & C' & Z' & Len & K).
      * exact W3.
      * exact Hd.
      * eapply Forall_impl; [| exact Hrs]. cbn beta. intros r H. lia.
      * intros r I. destruct (Xin r I) as [L D]. rewrite (Xcols r L D).
        destruct (Sh r (or_intror I)) as [H | (t & ps & e1 & H & He)]; [now left |]. right. exists t, ps.
        rewrite nth_error_upd, He. destruct (Nat.eqb t tag); eexists; split; try exact H; reflexivity.
      * intros r r' I L' D. destruct (Xin r I) as [L Dr]. unfold cidx at 2. rewrite (Xold r L). fold (cidx s r).
        destruct (Nat.lt_ge_cases r' (List.length (x_rows s))) as [H | H].
        -- unfold cidx at 1. rewrite (Xold r' H). fold (cidx s r'). exact (Sep r r' (or_intror I) H D).
        -- assert (r' = List.length (x_rows s)) as -> by lia. unfold cidx at 1. rewrite Xnew, <- Cr.
           apply (Sep r row (or_intror I) Hr). congruence.
      * assert (Znew : cols_of s' (List.length (x_rows s)) = zip_cols (snd (fst e)) args).
        { rewrite C'; [| lia | intros H; destruct (Xin _ H); lia]. unfold cols_of. rewrite Xnew, Xcol, Nat.eqb_refl. reflexivity. }
        exists cases', s'. split; [| split; [exact W' | split; [lia | split; [exact B' | split; [exact R' | split]]]]].
        { cbn [split_constructors]. unfold xbind at 1. rewrite Q. cbn [c_pat]. unfold xbind at 1. unfold xmust. rewrite Ec. cbn [xret].
          unfold xbind at 1. change (x_rows s1) with (x_rows s). rewrite E. exact E'. }
        { intros r L. rewrite A' by lia. now apply Xarm. }
        split; [| split; [| split]].
        -- intros r L I. rewrite C'; [| lia | intros H; apply I; now right]. apply Xcols; [exact L |]. intros ->. apply I. now left.
        -- intros r [<- | I] H; [congruence |]. destruct (Xin r I) as [L D]. apply Z'; [exact I |]. now rewrite Xcols.
        -- rewrite Len. apply upd_length.
        -- intros t e1 Et. specialize (K t). rewrite nth_error_upd, Et in K. cbn [option_map] in K.
           assert (Fe : forall f, filter (compat s3 t) todo = f -> filter (compat s t) todo = f).
           { intros f <-. apply filter_ext_in. intros r I. destruct (Xin r I) as [L D]. unfold compat. now rewrite Xcols. }
           assert (Tr : forall vars L0, Forall2 (link s3 s' vars t) (filter (compat s t) todo) L0 -> Forall2 (link s s' vars t) (filter (compat s t) todo) L0).
           { intros vars L0 H. refine (f2_in _ _ _ _ H _). intros r r' I [Ha [Hl Hk]]. apply filter_In in I. destruct (Xin r (proj1 I)) as [L D].
             split; [rewrite Ha; now apply Xarm |]. split; [exact Hl |].
             rewrite (Xcols r L D) in Hk. destruct Hk as [Hk | [Hk1 Hk2]]; [now left |]. right. split; [lia | exact Hk2]. }
           cbn [filter]. unfold compat at 1. rewrite One. cbn [c_pat].
           destruct (Nat.eqb t tag) eqn:J.
           ++ apply Nat.eqb_eq in J as ->. rewrite Nat.eqb_refl. rewrite Ec in Et. injection Et as <-.
              destruct (K _ eq_refl) as (L0 & EL & FL). cbn [fst snd] in EL, FL. exists (List.length (x_rows s) :: L0).
              rewrite <- app_assoc in EL. split; [exact EL |]. rewrite (Fe _ eq_refl) in FL || rewrite <- (Fe _ eq_refl) in FL.
              constructor; [| apply Tr; exact FL].
              split.
              ** rewrite A' by lia. unfold arm_of. rewrite Xnew, E. reflexivity.
              ** split; [lia |]. right. split; [lia |]. exists (mkCol v (QAdt tag args)), args. now repeat split.
           ++ rewrite (Nat.eqb_sym tag t), J. destruct (K _ eq_refl) as (L0 & EL & FL). exists L0. split; [exact EL |].
              apply Tr. rewrite <- (Fe _ eq_refl) in FL. exact FL.
Qed.

(** ** New variables *)

Definition same_rows (s s' : xst) : Prop := x_cols s' = x_cols s /\ x_rows s' = x_rows s /\ x_binds s' = x_binds s /\ x_missing s' = x_missing s.
Lemma newvars_spec : forall tys s, exists vs s', mapx new_variable tys s = XOk vs s' /\ same_rows s s' /\
  map xv_ty vs = tys /\ map xv_id vs = seq (x_next s) (List.length tys) /\ x_next s' = (x_next s + List.length tys)%nat.
Proof.
  induction tys as [| t tys IH]; intros s.
  - exists [], s. cbn. repeat split; lia.
  - assert (exists v s1, new_variable t s = XOk v s1 /\ same_rows s s1 /\ xv_ty v = t /\ xv_id v = x_next s /\ x_next s1 = S (x_next s))
      as (v & s1 & E1 & (A1 & B1 & C1 & D1) & T1 & I1 & X1) by (eexists; eexists; split; [reflexivity |]; repeat split).
    destruct (IH s1) as (vs & s' & E & (A & B & C & D) & T & I & X).
    exists (v :: vs), s'. cbn [mapx]. unfold xbind at 1. rewrite E1. unfold xbind. rewrite E. split; [reflexivity |].
    split; [repeat split; congruence |]. cbn [map seq List.length]. rewrite T, I, X, T1, I1, X1. repeat split. lia.
Qed.
Definition fresh_case (lo hi : nat) (k : dcons * list cty) (e : dcons * list xvar * list nat) : Prop :=
  fst (fst e) = fst k /\ snd e = [] /\ map xv_ty (snd (fst e)) = snd k /\ NoDup (map xv_id (snd (fst e))) /\
  Forall (fun x => lo <= xv_id x < hi)%nat (snd (fst e)).
Lemma newcases_spec : forall ks s, exists cs s',
  mapx (fun k => xbind (mapx new_variable (snd k)) (fun vs => xret (fst k, vs, @nil nat))) ks s = XOk cs s' /\ same_rows s s' /\
  (x_next s <= x_next s')%nat /\ Forall2 (fresh_case (x_next s) (x_next s')) ks cs.
Proof.
  induction ks as [| k ks IH]; intros s.
  - exists [], s. cbn. repeat split; auto.
  - destruct (newvars_spec (snd k) s) as (vs & s1 & E1 & (A1 & B1 & C1 & D1) & T1 & I1 & X1).
    destruct (IH s1) as (cs & s2 & E2 & (A2 & B2 & C2 & D2) & L2 & F2).
    eexists. exists s2. cbn [mapx]. unfold xbind at 1. unfold xbind at 1. rewrite E1. cbn [xret]. unfold xbind. unfold xbind in E2. rewrite E2.
    split; [reflexivity |]. split; [repeat split; congruence |]. split; [lia |]. constructor.
    + split; [reflexivity |]. split; [reflexivity |]. split; [exact T1 |]. cbn [fst snd]. split; [rewrite I1; apply seq_NoDup |].
      apply Forall_forall. intros x I. assert (In (xv_id x) (map xv_id vs)) as J by (apply in_map, I). rewrite I1 in J. apply in_seq in J. lia.
    + clear - F2 X1. induction F2 as [| x y l l' (P1 & P2 & P3 & P4 & P5) F IH]; constructor; [| exact IH].
      split; [exact P1 |]. split; [exact P2 |]. split; [exact P3 |]. split; [exact P4 |]. eapply Forall_impl; [| exact P5]. cbn beta. intros. lia.
Qed.
