(** A tree compiled from arms that look into a value one way picks the first arm
    that matches. *)
From Verif Require Import Base Bson Types Sym Exhaust Spec_Match MatchFacts.
From Coq Require Import Lia PeanoNat Permutation.

Fixpoint depth (p : xpat) : nat :=
  match p with QAdt _ args => S (fold_right (fun p n => Nat.max (depth p) n) O args) | _ => O end.
Lemma depth_arg tag args p : In p args -> (depth p < depth (QAdt tag args))%nat.
Proof. cbn [depth]. induction args as [| q args IH]; intros []; cbn [fold_right]; [subst; lia | specialize (IH H); lia]. Qed.

Section Tree.
Variable teq : cty -> cty -> bool.
Variable ctors : cty -> option (list (dcons * list cty)).
Variable inf : cty -> bool.
Hypothesis teq_refl : forall t, teq t t = true.

Lemma var_refl v : var_eqb teq v v = true.
Proof. unfold var_eqb. rewrite teq_refl. unfold text_eqb. now destruct (list_eq_dec N.eq_dec (xv_name v) (xv_name v)). Qed.

Record pre (s : xst) (rows : list nat) (v : xvar) (S : xpat -> Prop) (n : nat) : Prop := {
  p_wf : wfx s;
  p_nd : NoDup rows;
  p_in : Forall (fun r => r < List.length (x_rows s))%nat rows;
  p_arms : NoDup (map (arm_of s) rows);
  p_shape : forall r, In r rows -> unbound (cols_of s r) = [] \/ exists p, unbound (cols_of s r) = [mkCol v p] /\ S p;
  p_ids : forall r, In r rows -> Forall (fun c => xv_id (c_var c) < x_next s)%nat (cols_of s r);
  p_bids : forall r, In r rows -> Forall (fun b => snd b < x_next s)%nat (bnd s (arm_of s r));
  p_depth : forall r, In r rows -> Forall (fun c => depth (c_pat c) < n)%nat (cols_of s r)
}.

Record frame (s s' : xst) (rows : list nat) : Prop := {
  f_wf : wfx s';
  f_len : (List.length (x_rows s) <= List.length (x_rows s'))%nat;
  f_next : (x_next s <= x_next s')%nat;
  f_arm : forall r, (r < List.length (x_rows s))%nat -> arm_of s' r = arm_of s r;
  f_cols : forall r, (r < List.length (x_rows s))%nat -> ~ In r rows -> cols_of s' r = cols_of s r;
  f_nil : forall r, (r < List.length (x_rows s))%nat -> cols_of s r = [] -> cols_of s' r = [];
  f_bnd : forall a, (forall r, In r rows -> arm_of s r = a -> cols_of s r = []) -> bnd s' a = bnd s a;
  f_miss : x_missing s = true -> x_missing s' = true
}.

Definition fails (rho : menv) (l : list col) : Prop := forall b, ~ cmatch rho l b.
Definition good (rho : menv) (l : list col) : Prop :=
  Forall (fun c => exists w, rho (xv_id (c_var c)) = Some w /\ fits ctors (xv_ty (c_var c)) w) l.

(** What the tree of some rows does. *)
Definition sem_ok (s s' : xst) (rows : list nat) (t : dtree) : Prop :=
  forall B rho,
    (forall r, In r rows -> nth (arm_of s r) B [] = bnd s' (arm_of s r)) ->
    (forall r, In r rows -> good rho (cols_of s r)) ->
    (forall r, In r rows -> exists l0, values rho (bnd s (arm_of s r)) = Some l0) ->
    (exists pr r post b l0 l, rows = pr ++ r :: post /\ Forall (fun q => fails rho (cols_of s q)) pr /\
       cmatch rho (cols_of s r) b /\ values rho (bnd s (arm_of s r)) = Some l0 /\
       tree_run rho (finish B t) = Some (arm_of s r, l) /\ Permutation l (l0 ++ b)) \/
    (Forall (fun q => fails rho (cols_of s q)) rows /\ x_missing s' = true).
Definition missed (s : xst) (rows : list nat) (v : xvar) : Prop :=
  exists w, fits ctors (xv_ty v) w /\ forall r, In r rows -> exists p, unbound (cols_of s r) = [mkCol v p] /\ no_match p w.
Definition inhabited_all : Prop := forall T, exists w, fits ctors T w.

Definition claim (n : nat) : Prop := forall s rows v S, pre s rows v S n -> one_way ctors (xv_ty v) S ->
  exists t s', compile_rows teq ctors inf n rows s = XOk t s' /\ frame s s' rows /\ sem_ok s s' rows t /\
               (inhabited_all -> x_missing s' = true -> x_missing s = true \/ missed s rows v).

Lemma frame_refl s rows : wfx s -> frame s s rows.
Proof. intros W. constructor; auto. Qed.
Lemma frame_trans s s1 s2 R1 R2 R : frame s s1 R1 -> frame s1 s2 R2 -> incl R1 R -> incl R2 R ->
  Forall (fun r => r < List.length (x_rows s))%nat R2 -> frame s s2 R.
Proof.
  intros A B I1 I2 V. rewrite Forall_forall in V. destruct A as [w1 l1 n1 a1 c1 z1 b1 m1], B as [w2 l2 n2 a2 c2 z2 b2 m2]. constructor.
  - exact w2.
  - lia.
  - lia.
  - intros r L. rewrite a2 by lia. now apply a1.
  - intros r L N. rewrite c2; [apply c1; [exact L |] | lia |]; intros H; apply N; auto.
  - intros r L E. apply z2; [lia |]. now apply z1.
  - intros a H. rewrite b2.
    + apply b1. intros r Hr. apply H. now apply I1.
    + intros r Hr Ha. specialize (V r Hr). apply z1; [exact V |]. apply H; [now apply I2 |]. now rewrite <- a1.
  - auto.
Qed.

(** Two lists of rows compiled one after the other. *)
Definition disj (s : xst) (R1 R2 : list nat) : Prop :=
  forall r1 r2, In r1 R1 -> In r2 R2 -> arm_of s r1 = arm_of s r2 -> cols_of s r1 = [] /\ cols_of s r2 = [].

Lemma disj_same s s' R1 R2 : frame s s' R1 -> disj s R1 R2 -> Forall (fun r => r < List.length (x_rows s))%nat R2 ->
  forall r, In r R2 -> cols_of s' r = cols_of s r /\ arm_of s' r = arm_of s r /\ bnd s' (arm_of s r) = bnd s (arm_of s r).
Proof.
  intros F D V r I. rewrite Forall_forall in V. specialize (V r I). split; [| split].
  - destruct (in_dec Nat.eq_dec r R1) as [H | H].
    + destruct (D r r H I eq_refl) as [E _]. rewrite E. now apply (f_nil _ _ _ F).
    + now apply (f_cols _ _ _ F).
  - now apply (f_arm _ _ _ F).
  - apply (f_bnd _ _ _ F). intros r1 I1 E. exact (proj1 (D r1 r I1 I E)).
Qed.

Lemma pre_same s s' rows v S n : pre s rows v S n -> wfx s' -> (List.length (x_rows s) <= List.length (x_rows s'))%nat ->
  (x_next s <= x_next s')%nat ->
  (forall r, In r rows -> cols_of s' r = cols_of s r /\ arm_of s' r = arm_of s r /\ bnd s' (arm_of s r) = bnd s (arm_of s r)) ->
  pre s' rows v S n.
Proof.
  intros P W L X H. destruct P as [a b c d e f g h]. constructor; auto.
  - eapply Forall_impl; [| exact c]. cbn beta. intros. lia.
  - rewrite (map_ext_in (arm_of s') (arm_of s)); [exact d |]. intros r I. now apply H.
  - intros r I. rewrite (proj1 (H r I)). auto.
  - intros r I. rewrite (proj1 (H r I)). eapply Forall_impl; [| exact (f r I)]. cbn beta. intros. lia.
  - intros r I. destruct (H r I) as (_ & A & B). rewrite A, B. eapply Forall_impl; [| exact (g r I)]. cbn beta. intros. lia.
  - intros r I. rewrite (proj1 (H r I)). auto.
Qed.

(** The cases, one after the other. *)
Definition case_t : Type := dcons * list xvar * list nat.
Definition comp_case (n : nat) (e : case_t) : X (dcons * list nat * dtree) :=
  xbind (compile_rows teq ctors inf n (snd e)) (fun t => xret (fst (fst e), map xv_id (snd (fst e)), t)).
Definition ready_case (n : nat) (s : xst) (e : case_t) (x : xvar * (xpat -> Prop)) : Prop :=
  pre s (snd e) (fst x) (snd x) n /\ one_way ctors (xv_ty (fst x)) (snd x).
Definition done_case (s s' : xst) (e : case_t) (o : dcons * list nat * dtree) : Prop :=
  fst o = (fst (fst e), map xv_id (snd (fst e))) /\ sem_ok s s' (snd e) (snd o).

Lemma sem_later s s' s'' rows t : sem_ok s s' rows t ->
  (forall r, In r rows -> bnd s'' (arm_of s r) = bnd s' (arm_of s r)) -> (x_missing s' = true -> x_missing s'' = true) ->
  sem_ok s s'' rows t.
Proof.
  intros H E M B rho HB HG HV. destruct (H B rho) as [G | [G1 G2]]; auto.
  intros r I. rewrite (HB r I). now apply E.
Qed.
Lemma sem_earlier s0 s s' rows t : sem_ok s s' rows t ->
  (forall r, In r rows -> cols_of s r = cols_of s0 r /\ arm_of s r = arm_of s0 r /\ bnd s (arm_of s0 r) = bnd s0 (arm_of s0 r)) ->
  sem_ok s0 s' rows t.
Proof.
  intros H E B rho HB HG HV. destruct (H B rho) as [(pr & r & post & b & l0 & l & Er & Ef & Em & Ev & Et & Ep) | [G1 G2]].
  - intros r I. destruct (E r I) as (_ & A & _). rewrite A. auto.
  - intros r I. destruct (E r I) as (C & _). rewrite C. auto.
  - intros r I. destruct (E r I) as (_ & A & Bd). rewrite A, Bd. auto.
  - left. assert (I : In r rows) by (rewrite Er; apply in_elt). destruct (E r I) as (C & A & Bd).
    exists pr, r, post, b, l0, l. rewrite C in Em. rewrite A in Ev, Et. rewrite Bd in Ev. repeat split; auto.
    rewrite Forall_forall in *. intros q Iq. assert (J : In q rows) by (rewrite Er; apply in_or_app; now left).
    destruct (E q J) as (Cq & _). rewrite <- Cq. auto.
  - right. split; [| exact G2]. rewrite Forall_forall in *. intros q Iq. destruct (E q Iq) as (Cq & _). rewrite <- Cq. auto.
Qed.

Lemma loop n : claim n -> forall cs xs s, wfx s -> Forall2 (ready_case n s) cs xs ->
  ForallOrdPairs (fun e1 e2 => disj s (snd e1) (snd e2)) cs ->
  exists os s', mapx (comp_case n) cs s = XOk os s' /\ frame s s' (flat_map snd cs) /\ Forall2 (done_case s s') cs os /\
    (inhabited_all -> x_missing s' = true -> x_missing s = true \/
       exists k e x, nth_error cs k = Some e /\ nth_error xs k = Some x /\ missed s (snd e) (fst x)).
Proof.
  intros IH. induction cs as [| e cs IHc]; intros xs s W R D.
  - exists [], s. cbn. split; [reflexivity |]. split; [now apply frame_refl |]. split; [constructor |]. auto.
  - inversion R as [| e' x cs' xs' [Pe Oe] R' E1 E2]. subst. inversion D as [| e' cs' De D' E1]. subst. clear R D.
    destruct (IH s (snd e) (fst x) (snd x) Pe Oe) as (t & s1 & C1 & F1 & S1 & M1).
    assert (V : forall e2, In e2 cs -> Forall (fun r => r < List.length (x_rows s))%nat (snd e2)).
    { intros e2 I. destruct (In_nth_error _ _ I) as [k Ek]. clear - R' Ek. revert k Ek. induction R' as [| a b l l' [P _] F IH]; intros [| k] Ek; try discriminate.
      - injection Ek as <-. apply (p_in _ _ _ _ _ P).
      - exact (IH k Ek). }
    assert (Sm : forall e2, In e2 cs -> forall r, In r (snd e2) ->
               cols_of s1 r = cols_of s r /\ arm_of s1 r = arm_of s r /\ bnd s1 (arm_of s r) = bnd s (arm_of s r)).
    { intros e2 I. apply (disj_same s s1 (snd e)); [exact F1 | rewrite Forall_forall in De; now apply De | now apply V]. }
    destruct (IHc xs' s1 (f_wf _ _ _ F1)) as (os & s2 & C2 & F2 & S2 & M2).
    { assert (G : forall l xs', Forall2 (ready_case n s) l xs' -> incl l cs -> Forall2 (ready_case n s1) l xs').
      { induction 1 as [| a b l0 l' [P O] F IHl]; intros I; constructor.
        - split; [| exact O]. apply (pre_same s); [exact P | apply (f_wf _ _ _ F1) | apply (f_len _ _ _ F1) | apply (f_next _ _ _ F1) |].
          apply Sm. apply I. now left.
        - apply IHl. intros y Iy. apply I. now right. }
      apply (G cs xs' R'). apply incl_refl. }
    { assert (G : forall l, ForallOrdPairs (fun e1 e2 => disj s (snd e1) (snd e2)) l -> incl l cs ->
                  ForallOrdPairs (fun e1 e2 => disj s1 (snd e1) (snd e2)) l).
      { induction 1 as [| a l H F IHl]; intros I; constructor.
        - rewrite Forall_forall in *. intros b Ib r1 r2 I1 I2 Ea.
          destruct (Sm a (I a (or_introl eq_refl)) r1 I1) as (X1 & Y1 & _). destruct (Sm b (I b (or_intror Ib)) r2 I2) as (X2 & Y2 & _).
          rewrite X1, X2. apply (H b Ib); [assumption | assumption | congruence].
        - apply IHl. intros y Iy. apply I. now right. }
      apply (G cs D'). apply incl_refl. }
    exists ((fst (fst e), map xv_id (snd (fst e)), t) :: os), s2. split; [| split; [| split]].
    + cbn [mapx]. unfold xbind at 1. unfold comp_case at 1. unfold xbind at 1. rewrite C1. cbn [xret]. unfold xbind. rewrite C2. reflexivity.
    + apply (frame_trans s s1 s2 (snd e) (flat_map snd cs)); [exact F1 | exact F2 | cbn; apply incl_appl, incl_refl | cbn; apply incl_appr, incl_refl |].
      apply Forall_forall. intros r I. apply in_flat_map in I. destruct I as (e2 & I & J). specialize (V e2 I). rewrite Forall_forall in V. auto.
    + constructor.
      * split; [reflexivity |]. cbn [snd]. apply (sem_later s s1); [exact S1 | | apply (f_miss _ _ _ F2)].
        intros r I. apply (f_bnd _ _ _ F2). intros r2 I2 Ea. apply in_flat_map in I2. destruct I2 as (e2 & I2 & J2).
        destruct (Sm e2 I2 r2 J2) as (X & Y & _). rewrite X. rewrite Y in Ea. rewrite Forall_forall in De.
        exact (proj2 (De e2 I2 r r2 I J2 (eq_sym Ea))).
      * assert (G : forall l os, Forall2 (done_case s1 s2) l os -> incl l cs -> Forall2 (done_case s s2) l os).
        { induction 1 as [| a b l l' [P O] F IHl]; intros I; constructor.
          - split; [exact P |]. apply (sem_earlier s s1); [exact O |]. apply Sm. apply I. now left.
          - apply IHl. intros y Iy. apply I. now right. }
        apply (G cs os S2). apply incl_refl.
    + intros Inh Ms. destruct (M2 Inh Ms) as [Ms1 | (k & e2 & x2 & K1 & K2 & w & Fw & Hw)].
      * destruct (M1 Inh Ms1) as [Ms0 | Mi]; [now left |]. right. exists O, e, x. auto.
      * right. exists (S k), e2, x2. split; [exact K1 |]. split; [exact K2 |]. exists w. split; [exact Fw |].
        intros r I. destruct (Hw r I) as (p & U & Np). exists p. split; [| exact Np].
        destruct (Sm e2 (nth_error_In _ _ K1) r I) as (X & _). now rewrite <- X.
Qed.

Lemma unbound_zip i : forall vars args, (forall j q, nth_error args j = Some q -> j <> i -> is_bind q = true) ->
  unbound (zip_cols vars args) =
  match nth_error vars i, nth_error args i with Some x, Some q => if is_bind q then [] else [mkCol x q] | _, _ => [] end.
Proof.
  induction i as [| i IH]; intros [| x vars] [| q args] H; cbn [zip_cols nth_error]; try reflexivity.
  - unfold unbound. cbn [filter c_pat].
    assert (Z : filter (fun c => negb (is_bind (c_pat c))) (zip_cols vars args) = []).
    { assert (K : forall j q, nth_error args j = Some q -> is_bind q = true) by (intros j q' E; apply (H (S j)); [exact E | lia]).
      clear - K. revert args K. induction vars as [| x vars IH]; intros [| p args] K; cbn [zip_cols filter c_pat]; try reflexivity.
      rewrite (K O p eq_refl). cbn. apply IH. intros j q E. exact (K (S j) q E). }
    rewrite Z. destruct (is_bind q); reflexivity.
  - now destruct (nth_error vars i).
  - unfold unbound. cbn [filter c_pat]. rewrite (H O q eq_refl) by lia. cbn [negb].
    apply IH. intros j q' E D. apply (H (S j)); [exact E | lia].
Qed.

Lemma split_first {A B} (c : A -> bool) (P : A -> B -> Prop) r' L2 : forall R L1, Forall2 P (filter c R) (L1 ++ r' :: L2) ->
  exists R1 r R2, R = R1 ++ r :: R2 /\ c r = true /\ P r r' /\ (forall q, In q R1 -> c q = false \/ exists q', In q' L1 /\ P q q').
Proof.
  induction R as [| x R IH]; intros L1 F; cbn [filter] in F.
  - inversion F as [E |]. now destruct L1.
  - destruct (c x) eqn:C.
    + destruct L1 as [| y L1]; cbn [app] in F; inversion F as [| a b l l' H F' E1 E2]; subst.
      * exists [], x, R. repeat split; auto. intros q [].
      * destruct (IH L1 F') as (R1 & r & R2 & -> & Cr & Pr & K). exists (x :: R1), r, R2. repeat split; auto.
        intros q [<- | I]; [right; exists y; split; [now left | exact H] |].
        destruct (K q I) as [K1 | (q' & I' & K1)]; [now left |]. right. exists q'. split; [now right | exact K1].
    + destruct (IH L1 F) as (R1 & r & R2 & -> & Cr & Pr & K). exists (x :: R1), r, R2. repeat split; auto.
      intros q [<- | I]; [now left | exact (K q I)].
Qed.
Lemma f2_left {A B} (P : A -> B -> Prop) l l' y : Forall2 P l l' -> In y l' -> exists x, In x l /\ P x y.
Proof. induction 1 as [| a b l l' H F IH]; intros []; [subst; exists a; split; [now left | exact H] |]. destruct (IH H0) as (x & I & K). exists x. split; [now right | exact K]. Qed.
Lemma f2_right {A B} (P : A -> B -> Prop) l l' x : Forall2 P l l' -> In x l -> exists y, In y l' /\ P x y.
Proof. induction 1 as [| a b l l' H F IH]; intros []; [subst; exists b; split; [now left | exact H] |]. destruct (IH H0) as (y & I & K). exists y. split; [now right | exact K]. Qed.
Lemma f2_nth {A B} (P : A -> B -> Prop) l l' : Forall2 P l l' -> forall k x, nth_error l k = Some x -> exists y, nth_error l' k = Some y /\ P x y.
Proof. induction 1 as [| a b l l' H F IH]; intros [| k] x E; try discriminate; [injection E as <-; exists b; auto | exact (IH k x E)]. Qed.
Lemma f2_nth' {A B} (P : A -> B -> Prop) l l' : Forall2 P l l' -> forall k y, nth_error l' k = Some y -> exists x, nth_error l k = Some x /\ P x y.
Proof. induction 1 as [| a b l l' H F IH]; intros [| k] x E; try discriminate; [injection E as <-; exists a; auto | exact (IH k x E)]. Qed.

Lemma armbinds_none s rows a : (forall r, In r rows -> arm_of s r = a -> cols_of s r = []) -> armbinds s rows a = [].
Proof.
  unfold armbinds. induction rows as [| r rows IH]; intros H; [reflexivity |]. cbn [flat_map].
  rewrite IH by (intros; apply H; [now right | assumption]). rewrite app_nil_r.
  destruct (Nat.eqb a (arm_of s r)) eqn:Q; [| reflexivity]. apply Nat.eqb_eq in Q. rewrite (H r (or_introl eq_refl) (eq_sym Q)). reflexivity.
Qed.
Lemma armbinds_one s rows r : NoDup (map (arm_of s) rows) -> In r rows -> armbinds s rows (arm_of s r) = binds_of (cols_of s r).
Proof.
  unfold armbinds. induction rows as [| q rows IH]; intros N []; cbn [map flat_map] in *; inversion N as [| x y Hn Hd]; subst.
  - rewrite Nat.eqb_refl. replace (flat_map _ rows) with (@nil (text * nat)); [apply app_nil_r |].
    symmetry. clear - Hn. induction rows as [| q rows IH]; [reflexivity |]. cbn [flat_map map] in *.
    destruct (Nat.eqb (arm_of s r) (arm_of s q)) eqn:Q; [apply Nat.eqb_eq in Q; exfalso; apply Hn; left; auto |].
    apply IH. intros H. apply Hn. now right.
  - destruct (Nat.eqb (arm_of s r) (arm_of s q)) eqn:Q.
    + apply Nat.eqb_eq in Q. exfalso. apply Hn. rewrite <- Q. now apply in_map.
    + now apply IH.
Qed.

Lemma switch_run rho x cases fb tag vs c ids b : rho x = Some (MVariant tag vs) -> nth_error cases tag = Some (c, ids, b) ->
  (forall j e, nth_error cases j = Some e -> exists u, fst (fst e) = KVariant u j) ->
  tree_run rho (DSwitch x cases fb) = tree_run (bind_args rho ids vs) b.
Proof.
  intros R E H. cbn [tree_run]. rewrite R.
  assert (G : forall l off, nth_error l tag = Some (c, ids, b) -> (forall j e, nth_error l j = Some e -> exists u, fst (fst e) = KVariant u (off + j)%nat) ->
    (fix go (l : list (dcons * list nat * dtree)) : option (nat * list (text * mval)) :=
             match l with
             | [] => None
             | (c, ids, b) :: r =>
                 if test c (MVariant (off + tag) vs) then tree_run (bind_args rho ids vs) b
                 else go r
             end) l = tree_run (bind_args rho ids vs) b).
  { clear E H R. induction tag as [| tag IH]; intros l off E H.
    - destruct l as [| [[c1 i1] b1] l]; [discriminate |]. injection E as -> -> ->. destruct (H O _ eq_refl) as [u Hu]. cbn in Hu. subst c.
      cbn [test]. rewrite Nat.eqb_refl. reflexivity.
    - destruct l as [| [[c1 i1] b1] l]; [discriminate |]. destruct (H O _ eq_refl) as [u Hu]. cbn in Hu. subst c1. cbn [test].
      replace (Nat.eqb (off + 0) (off + S tag)) with false by (symmetry; apply Nat.eqb_neq; lia).
      specialize (IH l (S off) E). replace (off + S tag)%nat with (S off + tag)%nat by lia. apply IH.
      intros j e Ej. destruct (H (S j) e Ej) as [u' Hu']. exists u'. rewrite Hu'. f_equal. lia. }
  exact (G cases O E H).
Qed.
Lemma in_zip vars : forall args x p, In (mkCol x p) (zip_cols vars args) -> exists j, nth_error vars j = Some x /\ nth_error args j = Some p.
Proof.
  induction vars as [| y vars IH]; intros [| q args] x p I; cbn [zip_cols] in I; try easy.
  destruct I as [E | I]; [injection E as -> ->; exists O; auto |]. destruct (IH _ _ _ I) as [j Hj]. exists (S j). exact Hj.
Qed.
Lemma all_match_nth args : forall vs b j p v, all_match args vs b -> nth_error args j = Some p -> nth_error vs j = Some v -> exists b', matches p v b'.
Proof.
  induction args as [| q args IH]; intros vs b j p v M E F; [now destruct j |]. inversion M as [| p' ps v' vs' b' bs H1 H2]; subst.
  destruct j as [| j]; [injection E as ->; injection F as ->; eauto | exact (IH _ _ _ _ _ H2 E F)].
Qed.
Lemma all_fit_nth Ts : forall vs j T v, all_fit ctors Ts vs -> nth_error Ts j = Some T -> nth_error vs j = Some v -> fits ctors T v.
Proof.
  induction Ts as [| T0 Ts IH]; intros vs j T v M E F; [now destruct j |]. inversion M; subst.
  destruct j as [| j]; [injection E as ->; injection F as ->; assumption | eapply IH; eassumption].
Qed.
Lemma all_fit_length Ts vs : all_fit ctors Ts vs -> List.length vs = List.length Ts.
Proof. induction 1; cbn; congruence. Qed.
Lemma inhabit : inhabited_all -> forall Ts i T w, nth_error Ts i = Some T -> fits ctors T w -> exists vs, all_fit ctors Ts vs /\ nth_error vs i = Some w.
Proof.
  intros Inh. assert (All : forall Ts, exists vs, all_fit ctors Ts vs).
  { induction Ts as [| T Ts [vs Hv]]; [exists []; constructor |]. destruct (Inh T) as [w Hw]. exists (w :: vs). now constructor. }
  induction Ts as [| T0 Ts IH]; intros i T w E F; [now destruct i |]. destruct i as [| i].
  - injection E as ->. destruct (All Ts) as [vs Hv]. exists (w :: vs). split; [now constructor | reflexivity].
  - destruct (IH i T w E F) as (vs & Hv & Hn). destruct (Inh T0) as [w0 H0]. exists (w0 :: vs). split; [now constructor | exact Hn].
Qed.
Lemma choose {A B} (P : A -> B -> Prop) l : (forall k x, nth_error l k = Some x -> exists y, P x y) -> exists ys, Forall2 P l ys.
Proof.
  induction l as [| x l IH]; intros H; [exists []; constructor |]. destruct (H O x eq_refl) as [y Hy].
  destruct IH as [ys Hys]; [intros k z E; exact (H (S k) z E) |]. exists (y :: ys). now constructor.
Qed.

Lemma ord_pairs {A} (R : A -> A -> Prop) l :
  (forall i j a b, (i < j)%nat -> nth_error l i = Some a -> nth_error l j = Some b -> R a b) -> ForallOrdPairs R l.
Proof.
  induction l as [| x l IH]; intros H; constructor.
  - apply Forall_forall. intros y I. destruct (In_nth_error _ _ I) as [k Ek]. apply (H O (S k)); [lia | reflexivity | exact Ek].
  - apply IH. intros i j a b L Ei Ej. apply (H (S i) (S j)); [lia | exact Ei | exact Ej].
Qed.
Lemma nodup_map_filter {A B} (f : A -> B) c l : NoDup (map f l) -> NoDup (map f (filter c l)).
Proof.
  induction l as [| x l IH]; intros N; [constructor |]. cbn [map filter] in *. inversion N as [| y z Hn Hd]; subst.
  destruct (c x); [| now apply IH]. cbn [map]. constructor; [| now apply IH]. intros H. apply Hn.
  apply in_map_iff in H. destruct H as (y & E & I). apply filter_In in I. rewrite <- E. now apply in_map.
Qed.
Lemma nodup_map_inj {A B} (f : A -> B) l x y : NoDup (map f l) -> In x l -> In y l -> f x = f y -> x = y.
Proof.
  induction l as [| a l IH]; intros N Ix Iy E; [easy |]. cbn in N. inversion N as [| b c Hn Hd]; subst.
  destruct Ix as [<- | Ix], Iy as [<- | Iy]; auto.
  - exfalso. apply Hn. rewrite E. now apply in_map.
  - exfalso. apply Hn. rewrite <- E. now apply in_map.
Qed.

Section Step.
Variable n : nat.
Variable s : xst.
Variable rows : list nat.
Variable v : xvar.
Variable S : xpat -> Prop.
Hypothesis P : pre s rows v S (Datatypes.S n).
Variable ks : list (dcons * list cty).
Hypothesis Hks : ctors (xv_ty v) = Some ks.
Hypothesis Htags : forall tag k, nth_error ks tag = Some k -> exists u, fst k = KVariant u tag.
Hypothesis Hpats : forall p, S p -> match p with
                      | QBind _ => True
                      | QAdt tag ps => exists k, nth_error ks tag = Some k /\ List.length ps = List.length (snd k)
                      | _ => False
                      end.
Hypothesis Hway : forall tag k, nth_error ks tag = Some k ->
       exists i, (forall ps j q, S (QAdt tag ps) -> nth_error ps j = Some q -> j <> i -> is_bind q = true) /\
                 (forall T', nth_error (snd k) i = Some T' ->
                    one_way ctors T' (fun q => exists ps, S (QAdt tag ps) /\ nth_error ps i = Some q)).
(** After moving names, making variables and sorting the rows. *)
Variables s1 s2 s3 : xst.
Variable cs : list case_t.
Hypothesis M_len : List.length (x_rows s1) = List.length (x_rows s).
Hypothesis M_arm : forall r, arm_of s1 r = arm_of s r.
Hypothesis M_in : forall r, In r rows -> cols_of s1 r = unbound (cols_of s r).
Hypothesis M_out : forall r, ~ In r rows -> cols_of s1 r = cols_of s r.
Hypothesis M_bnd : forall a, bnd s1 a = bnd s a ++ armbinds s rows a.
Hypothesis M_next : x_next s1 = x_next s.
Hypothesis M_miss : x_missing s1 = x_missing s.
Hypothesis N_same : same_rows s1 s2.
Hypothesis N_next : (x_next s1 <= x_next s2)%nat.
Hypothesis S_wf : wfx s3.
Hypothesis S_len : (List.length (x_rows s2) <= List.length (x_rows s3))%nat.
Hypothesis S_binds : x_binds s3 = x_binds s2.
Hypothesis S_rest : rest s3 = rest s2.
Hypothesis S_arm : forall r, (r < List.length (x_rows s2))%nat -> arm_of s3 r = arm_of s2 r.
Hypothesis S_out : forall r, (r < List.length (x_rows s2))%nat -> ~ In r rows -> cols_of s3 r = cols_of s2 r.
Hypothesis S_nil : forall r, In r rows -> cols_of s2 r = [] -> cols_of s3 r = [].
Hypothesis S_cases : forall tag e, nth_error cs tag = Some e -> exists k vars,
   nth_error ks tag = Some k /\ fst e = (fst k, vars) /\ map xv_ty vars = snd k /\ NoDup (map xv_id vars) /\
   Forall (fun x => x_next s1 <= xv_id x < x_next s2)%nat vars /\
   Forall2 (link s2 s3 vars tag) (filter (compat s2 tag) rows) (snd e).
Hypothesis S_all : List.length cs = List.length ks.

Lemma s2_cols r : cols_of s2 r = cols_of s1 r.
Proof. destruct N_same as (A & B & _). unfold cols_of. now rewrite A, B. Qed.
Lemma s2_arm r : arm_of s2 r = arm_of s r.
Proof. destruct N_same as (A & B & _). rewrite <- M_arm. unfold arm_of. now rewrite B. Qed.
Lemma s2_len : List.length (x_rows s2) = List.length (x_rows s).
Proof. destruct N_same as (A & B & _). now rewrite B. Qed.
Lemma s3_bnd a : bnd s3 a = bnd s1 a.
Proof. destruct N_same as (A & B & C & _). unfold bnd. now rewrite S_binds, C. Qed.
Lemma s3_next : x_next s3 = x_next s2.
Proof. unfold rest in S_rest. congruence. Qed.
Lemma s3_miss : x_missing s3 = x_missing s.
Proof. destruct N_same as (A & B & C & D). unfold rest in S_rest. congruence. Qed.
Lemma row_lt r : In r rows -> (r < List.length (x_rows s))%nat.
Proof. pose proof (p_in _ _ _ _ _ P) as H. rewrite Forall_forall in H. apply H. Qed.

(** A row before and after. *)
Lemma row_shape r : In r rows -> cols_of s2 r = [] \/
  exists tag ps, cols_of s2 r = [mkCol v (QAdt tag ps)] /\ S (QAdt tag ps) /\ In (mkCol v (QAdt tag ps)) (cols_of s r).
Proof.
  intros I. rewrite s2_cols, (M_in r I). destruct (p_shape _ _ _ _ _ P r I) as [H | (p & H & Sp)]; [now left |]. right.
  assert (J : In (mkCol v p) (unbound (cols_of s r))) by (rewrite H; now left). unfold unbound in J. apply filter_In in J. cbn in J.
  pose proof (Hpats p Sp) as K. destruct p as [z | t | m | tag ps]; try easy. exists tag, ps. repeat split; [exact H | exact Sp | apply J].
Qed.
Lemma from_link tag e r' : nth_error cs tag = Some e -> In r' (snd e) -> exists k vars r, nth_error ks tag = Some k /\
  fst e = (fst k, vars) /\ In r rows /\ compat s2 tag r = true /\ arm_of s3 r' = arm_of s r /\ (r' < List.length (x_rows s3))%nat /\
  ((cols_of s2 r = [] /\ r' = r /\ cols_of s3 r' = []) \/
   ((List.length (x_rows s) <= r')%nat /\ exists ps, cols_of s2 r = [mkCol v (QAdt tag ps)] /\ S (QAdt tag ps) /\
      In (mkCol v (QAdt tag ps)) (cols_of s r) /\ cols_of s3 r' = zip_cols vars ps)).
Proof.
  intros E I. destruct (S_cases tag e E) as (k & vars & Ek & Ef & _ & _ & _ & F). destruct (f2_left _ _ _ _ F I) as (r & Ir & La & Ll & Lk).
  apply filter_In in Ir. destruct Ir as [Ir Cr]. exists k, vars, r. rewrite s2_arm in La. repeat split; auto.
  destruct Lk as [H | (H1 & c & ps & H2 & H3 & H4)]; [now left |]. right. rewrite s2_len in H1. split; [exact H1 |]. exists ps.
  destruct (row_shape r Ir) as [Z | (t & qs & Z & Sq & Iq)]; [congruence |]. rewrite H2 in Z. injection Z as ->. cbn in H3. injection H3 as <- <-.
  repeat split; auto.
Qed.

Definition posn (tag : nat) (vars : list xvar) (x : xvar * (xpat -> Prop)) : Prop :=
  exists i, (forall ps j q, S (QAdt tag ps) -> nth_error ps j = Some q -> j <> i -> is_bind q = true) /\
    ((nth_error vars i = Some (fst x)) \/ nth_error vars i = None).
Lemma case_ready tag e : nth_error cs tag = Some e -> exists x, ready_case n s3 e x /\ posn tag (snd (fst e)) x.
Proof.
  intros E. destruct (S_cases tag e E) as (k & vars & Ek & Ef & Ht & Hn & Hr & F). destruct (Hway tag k Ek) as (i & Hb & Ho).
  assert (Q : exists x, one_way ctors (xv_ty (fst x)) (snd x) /\
     (nth_error vars i = Some (fst x) /\ (forall q ps, S (QAdt tag ps) -> nth_error ps i = Some q -> snd x q) \/ nth_error vars i = None)).
  { destruct (nth_error vars i) as [v' |] eqn:Ev.
    - exists (v', fun q => exists ps, S (QAdt tag ps) /\ nth_error ps i = Some q). split.
      + cbn [fst snd]. apply Ho. rewrite <- Ht. rewrite nth_error_map, Ev. reflexivity.
      + left. split; [reflexivity |]. intros q ps A B. cbn. eauto.
    - exists (v, fun _ => False). split; [apply OWNames; intros p [] | now right]. }
  destruct Q as (x & Ox & Hx). exists x. split; [split; [| exact Ox] |].
  2: { rewrite Ef. cbn [snd]. exists i. split; [exact Hb |]. destruct Hx as [[H _] | H]; auto. }
  assert (Am : map (arm_of s3) (snd e) = map (arm_of s2) (filter (compat s2 tag) rows)).
  { clear - F. induction F as [| a b l l' [H _] F IH]; [reflexivity |]. cbn. now rewrite H, IH. }
  assert (Nm : NoDup (map (arm_of s3) (snd e))).
  { rewrite Am. apply nodup_map_filter. rewrite (map_ext (arm_of s2) (arm_of s) s2_arm). apply (p_arms _ _ _ _ _ P). }
  constructor.
  - exact S_wf.
  - exact (NoDup_map_inv _ _ Nm).
  - apply Forall_forall. intros r' I. now destruct (from_link tag e r' E I) as (_ & _ & _ & _ & _ & _ & _ & _ & L & _).
  - exact Nm.
  - intros r' I. destruct (from_link tag e r' E I) as (k' & vars' & r & Ek' & Ef' & Ir & Cr & Ar & Lr & [(_ & _ & Z) | (_ & ps & _ & Sp & _ & Z)]).
    + left. now rewrite Z.
    + rewrite Ef in Ef'. injection Ef' as E1 E2. subst vars'. rewrite Z, (unbound_zip i) by (intros j q; now apply Hb).
      destruct Hx as [[Hv Hs] | Hv]; rewrite Hv; [| now left]. destruct (nth_error ps i) as [q |] eqn:Eq; [| now left].
      destruct (is_bind q); [now left |]. right. exists q. split; [reflexivity |]. eapply Hs; eassumption.
  - intros r' I. destruct (from_link tag e r' E I) as (k' & vars' & r & Ek' & Ef' & Ir & Cr & Ar & Lr & [(_ & _ & Z) | (_ & ps & _ & Sp & _ & Z)]).
    + rewrite Z. constructor.
    + rewrite Ef in Ef'. injection Ef' as E1 E2. subst vars'. rewrite Z. apply Forall_forall. intros [y p] J. apply in_zip in J. destruct J as (j & Jv & _).
      apply nth_error_In in Jv. rewrite Forall_forall in Hr. specialize (Hr y Jv). cbn. rewrite s3_next. lia.
  - intros r' I. destruct (from_link tag e r' E I) as (k' & vars' & r & Ek' & Ef' & Ir & Cr & Ar & Lr & _).
    rewrite Ar, s3_bnd, M_bnd, (armbinds_one s rows r (p_arms _ _ _ _ _ P) Ir), s3_next. apply Forall_app. split.
    + eapply Forall_impl; [| exact (p_bids _ _ _ _ _ P r Ir)]. cbn beta. intros. lia.
    + pose proof (p_ids _ _ _ _ _ P r Ir) as H. apply Forall_forall. intros [m i0] J. unfold binds_of in J. apply in_flat_map in J.
      destruct J as (c & Jc & J). rewrite Forall_forall in H. specialize (H c Jc). destruct (c_pat c); cbn in J; try easy.
      destruct J as [J | []]. injection J as <- <-. cbn. lia.
  - intros r' I. destruct (from_link tag e r' E I) as (k' & vars' & r & Ek' & Ef' & Ir & Cr & Ar & Lr & [(_ & _ & Z) | (_ & ps & _ & Sp & Iq & Z)]).
    + rewrite Z. constructor.
    + rewrite Z. apply Forall_forall. intros [y p] J. apply in_zip in J. destruct J as (j & _ & Jp). apply nth_error_In in Jp.
      pose proof (p_depth _ _ _ _ _ P r Ir) as H. rewrite Forall_forall in H. specialize (H _ Iq). cbn [c_pat] in H |- *.
      pose proof (depth_arg tag ps p Jp). lia.
Qed.

Lemma cases_disj : ForallOrdPairs (fun e1 e2 => disj s3 (snd e1) (snd e2)) cs.
Proof.
  apply ord_pairs. intros t1 t2 e1 e2 L E1 E2 r1 r2 I1 I2 Ea.
  destruct (from_link t1 e1 r1 E1 I1) as (k1 & v1 & q1 & _ & _ & J1 & C1 & A1 & _ & K1).
  destruct (from_link t2 e2 r2 E2 I2) as (k2 & v2 & q2 & _ & _ & J2 & C2 & A2 & _ & K2).
  assert (q1 = q2) as <- by (apply (nodup_map_inj (arm_of s) rows); [apply (p_arms _ _ _ _ _ P) | assumption | assumption | congruence]).
  unfold compat in C1, C2. destruct (row_shape q1 J1) as [Z | (t & ps & Z & _)]; rewrite Z in *.
  - destruct K1 as [(_ & _ & X1) | (_ & p1 & X1 & _)]; [| discriminate]. destruct K2 as [(_ & _ & X2) | (_ & p2 & X2 & _)]; [| discriminate]. auto.
  - cbn in C1, C2. apply Nat.eqb_eq in C1, C2. lia.
Qed.

Lemma step_frame s4 : frame s3 s4 (flat_map snd cs) -> frame s s4 rows.
Proof.
  intros F. constructor.
  - apply (f_wf _ _ _ F).
  - pose proof (f_len _ _ _ F). rewrite <- s2_len. lia.
  - pose proof (f_next _ _ _ F). rewrite s3_next in H. lia.
  - intros r L. rewrite (f_arm _ _ _ F) by (rewrite <- s2_len in L; lia). rewrite S_arm by (now rewrite s2_len). apply s2_arm.
  - intros r L N. rewrite (f_cols _ _ _ F).
    + rewrite S_out, s2_cols by (rewrite ?s2_len; assumption). now apply M_out.
    + rewrite <- s2_len in L. lia.
    + intros I. apply in_flat_map in I. destruct I as (e & Ie & I). destruct (In_nth_error _ _ Ie) as [tag Et].
      destruct (from_link tag e r Et I) as (_ & _ & q & _ & _ & J & _ & _ & _ & [(_ & -> & _) | (H & _)]); [easy | lia].
  - intros r L E. apply (f_nil _ _ _ F); [rewrite <- s2_len in L; lia |].
    destruct (in_dec Nat.eq_dec r rows) as [I | I].
    + apply S_nil; [exact I |]. rewrite s2_cols, M_in, E by assumption. reflexivity.
    + rewrite S_out, s2_cols, M_out by (rewrite ?s2_len; assumption). exact E.
  - intros a H. rewrite (f_bnd _ _ _ F).
    + rewrite s3_bnd, M_bnd, armbinds_none by assumption. apply app_nil_r.
    + intros r' I Ea. apply in_flat_map in I. destruct I as (e & Ie & I). destruct (In_nth_error _ _ Ie) as [tag Et].
      destruct (from_link tag e r' Et I) as (_ & _ & q & _ & _ & J & _ & A & _ & [(_ & _ & Z) | (_ & ps & Z & _)]); [exact Z |].
      exfalso. rewrite s2_cols, (M_in q J), (H q J) in Z by congruence. discriminate.
  - intros H. apply (f_miss _ _ _ F). now rewrite s3_miss.
Qed.

Lemma good_known rho l : good rho l -> known rho l.
Proof. intros H. eapply Forall_impl; [| exact H]. cbn beta. intros c (w & E & _). congruence. Qed.
Lemma one_col rho p w b : rho (xv_id v) = Some w -> (cmatch rho [mkCol v p] b <-> matches p w b).
Proof.
  intros R. split; intros H.
  - inversion H as [| c l w' b1 bs E M C]; subst. inversion C; subst. rewrite app_nil_r. cbn in *. congruence.
  - rewrite <- (app_nil_r b). apply (CMCons rho (mkCol v p) [] w); [exact R | exact H | constructor].
Qed.

Section Value.
Variable rho : menv.
Variables (tag : nat) (vs : list mval) (k : dcons * list cty) (e : case_t).
Hypothesis Rv : rho (xv_id v) = Some (MVariant tag vs).
Hypothesis Kt : nth_error ks tag = Some k.
Hypothesis Fv : all_fit ctors (snd k) vs.
Hypothesis Et : nth_error cs tag = Some e.
Hypothesis HG : forall r, In r rows -> good rho (cols_of s r).
Let rho' : menv := bind_args rho (map xv_id (snd (fst e))) vs.

Lemma rho'_arg i x w : nth_error (snd (fst e)) i = Some x -> nth_error vs i = Some w -> rho' (xv_id x) = Some w.
Proof.
  intros A B. destruct (S_cases tag e Et) as (k' & vars & Ek & Ef & Ht & Hn & Hr & F). unfold rho'. rewrite Ef in *. cbn [snd] in *.
  apply (bind_args_nth _ _ _ i); [exact Hn | rewrite nth_error_map, A; reflexivity | exact B].
Qed.
Lemma rho'_old i : (i < x_next s)%nat -> rho' i = rho i.
Proof.
  intros L. destruct (S_cases tag e Et) as (k' & vars & Ek & Ef & Ht & Hn & Hr & F). unfold rho'. rewrite Ef. cbn [snd].
  apply bind_args_other. intros I. apply in_map_iff in I. destruct I as (x & <- & I). rewrite Forall_forall in Hr. specialize (Hr x I). lia.
Qed.
Lemma vs_len vars : map xv_ty vars = snd k -> List.length vars = List.length vs.
Proof. intros H. rewrite (all_fit_length _ _ Fv), <- H. symmetry. apply map_length. Qed.

(** A row that has a copy in the case of the value. *)
Lemma copy_match r r' b : In r rows -> link s2 s3 (snd (fst e)) tag r r' ->
  (cmatch rho' (cols_of s3 r') b <-> cmatch rho (unbound (cols_of s r)) b).
Proof.
  intros I (_ & _ & L). rewrite <- (M_in r I), <- s2_cols. destruct L as [(A & _ & B) | (_ & c & ps & A & Bq & B)].
  - rewrite A, B. split; intros H; inversion H; constructor.
  - destruct (row_shape r I) as [Z | (t & qs & Z & Sq & _)]; [congruence |]. rewrite A in Z. injection Z as ->. cbn in Bq. injection Bq as -> ->.
    rewrite A, B, (one_col rho _ _ _ Rv).
    destruct (S_cases tag e Et) as (k' & vars & Ek & Ef & Ht & Hn & Hr & F). rewrite Kt in Ek. injection Ek as <-.
    destruct (Hpats _ Sq) as (k' & Ek & Lp). rewrite Kt in Ek. injection Ek as <-. rewrite Ef in *. cbn [snd] in *.
    rewrite (zip_cmatch rho' vars ps vs b).
    + split; intros H; [now constructor | now inversion H].
    + rewrite Lp, <- Ht. symmetry. apply map_length.
    + intros j x w A1 A2. apply (rho'_arg j); [rewrite Ef; exact A1 | exact A2].
    + now rewrite Lp, (all_fit_length _ _ Fv).
Qed.
Lemma incompat_fails r : In r rows -> compat s2 tag r = false -> fails rho (cols_of s r).
Proof.
  intros I C b H. apply cmatch_split in H. destruct H as (lb & bu & _ & H & _). rewrite <- (M_in r I), <- s2_cols in H.
  unfold compat in C. destruct (row_shape r I) as [Z | (t & ps & Z & _)]; rewrite Z in *; [discriminate |]. cbn in C.
  apply (one_col rho _ _ _ Rv) in H. inversion H; subst. now rewrite Nat.eqb_refl in C.
Qed.
Lemma copy_fails r r' : In r rows -> link s2 s3 (snd (fst e)) tag r r' -> fails rho' (cols_of s3 r') -> fails rho (cols_of s r).
Proof.
  intros I L F b H. apply cmatch_split in H. destruct H as (lb & bu & _ & H & _). apply (F bu). now apply (copy_match r r' bu I L).
Qed.
Lemma copy_good r r' : In r rows -> link s2 s3 (snd (fst e)) tag r r' -> good rho' (cols_of s3 r').
Proof.
  intros I (_ & _ & L). destruct L as [(A & _ & B) | (_ & c & ps & A & Bq & B)]; rewrite B; [constructor |].
  apply Forall_forall. intros [x p] J. apply in_zip in J. destruct J as (j & Jv & Jp).
  destruct (S_cases tag e Et) as (k' & vars & Ek & Ef & Ht & Hn & Hr & F). rewrite Kt in Ek. injection Ek as <-. rewrite Ef in *. cbn [snd] in *.
  destruct (nth_error vs j) as [w |] eqn:Ew.
  - exists w. cbn. split; [apply (rho'_arg j); [rewrite Ef; exact Jv | exact Ew] |].
    apply (all_fit_nth (snd k) vs j); [exact Fv | rewrite <- Ht, nth_error_map, Jv; reflexivity | exact Ew].
  - apply nth_error_None in Ew. assert (j < List.length vars)%nat by (apply nth_error_Some; congruence). rewrite (vs_len vars Ht) in H. lia.
Qed.
Lemma names_values r : In r rows -> values rho' (bnd s1 (arm_of s r)) = values rho (bnd s1 (arm_of s r)).
Proof.
  intros I. apply values_ext. rewrite M_bnd, (armbinds_one s rows r (p_arms _ _ _ _ _ P) I). apply Forall_app. split.
  - eapply Forall_impl; [| exact (p_bids _ _ _ _ _ P r I)]. cbn beta. intros a H. now apply rho'_old.
  - pose proof (p_ids _ _ _ _ _ P r I) as H. apply Forall_forall. intros [m i0] J. unfold binds_of in J. apply in_flat_map in J.
    destruct J as (c & Jc & J). rewrite Forall_forall in H. specialize (H c Jc). destruct (c_pat c); cbn in J; try easy.
    destruct J as [J | []]. injection J as <- <-. cbn. now apply rho'_old.
Qed.

Lemma case_sem s4 B t :
  sem_ok s3 s4 (snd e) t ->
  (forall r, In r rows -> nth (arm_of s r) B [] = bnd s4 (arm_of s r)) ->
  (forall r, In r rows -> exists l0, values rho (bnd s (arm_of s r)) = Some l0) ->
  (exists pr r post b l0 l, rows = pr ++ r :: post /\ Forall (fun q => fails rho (cols_of s q)) pr /\
       cmatch rho (cols_of s r) b /\ values rho (bnd s (arm_of s r)) = Some l0 /\
       tree_run rho' (finish B t) = Some (arm_of s r, l) /\ Permutation l (l0 ++ b)) \/
    (Forall (fun q => fails rho (cols_of s q)) rows /\ x_missing s4 = true).
Proof.
  intros Sm HB HV. destruct (S_cases tag e Et) as (k' & vars & Ek & Ef & Ht & Hn & Hr & F).
  assert (Fl : Forall2 (link s2 s3 (snd (fst e)) tag) (filter (compat s2 tag) rows) (snd e)) by (rewrite Ef; exact F). clear F.
  assert (Bk : forall r', In r' (snd e) -> exists r, In r rows /\ link s2 s3 (snd (fst e)) tag r r' /\ arm_of s3 r' = arm_of s r).
  { intros r' I. destruct (f2_left _ _ _ _ Fl I) as (r & J & L). apply filter_In in J. exists r. split; [apply J |]. split; [exact L |].
    destruct L as [A _]. now rewrite s2_arm in A. }
  assert (Vj : forall r, In r rows -> exists l0 lb, values rho (bnd s (arm_of s r)) = Some l0 /\ values rho (binds_of (cols_of s r)) = Some lb /\
               values rho' (bnd s3 (arm_of s r)) = Some (l0 ++ lb)).
  { intros r I. destruct (HV r I) as [l0 H0].
    assert (exists lb, values rho (binds_of (cols_of s r)) = Some lb) as [lb Hl].
    { pose proof (good_known _ _ (HG r I)) as K. clear - K. induction K as [| c l Hc K [lb IH]]; [exists []; reflexivity |].
      unfold binds_of in *. cbn [flat_map]. destruct (c_pat c); try (exists lb; exact IH). cbn [app values].
      destruct (rho (xv_id (c_var c))); [| easy]. rewrite IH. eexists. reflexivity. }
    exists l0, lb. split; [exact H0 |]. split; [exact Hl |].
    rewrite s3_bnd, names_values by assumption. rewrite M_bnd, (armbinds_one s rows r (p_arms _ _ _ _ _ P) I), values_app, H0, Hl. reflexivity. }
  destruct (Sm B rho') as [(pr & r' & post & b & l0' & l & Er & Efail & Em & Ev & Erun & Ep) | [Hf Hm]].
  - intros r' I. destruct (Bk r' I) as (r & J & L & A). rewrite A. now apply HB.
  - intros r' I. destruct (Bk r' I) as (r & J & L & A). exact (copy_good r r' J L).
  - intros r' I. destruct (Bk r' I) as (r & J & L & A). destruct (Vj r J) as (l0 & lb & _ & _ & H). rewrite A. eauto.
  - left. rewrite Er in Fl. destruct (split_first _ _ _ _ _ _ Fl) as (R1 & r & R2 & Erows & Cr & Lk & K).
    assert (Ir : In r rows) by (rewrite Erows; apply in_elt). assert (Ar : arm_of s3 r' = arm_of s r) by (destruct Lk as [A _]; now rewrite s2_arm in A).
    destruct (Vj r Ir) as (l0 & lb & H0 & Hl & Hv). rewrite Ar, Hv in Ev. injection Ev as <-.
    apply (copy_match r r' b Ir Lk) in Em. destruct (cmatch_join rho (cols_of s r) b (good_known _ _ (HG r Ir)) Em) as (lb' & b' & Hl' & Hm & Hp).
    rewrite Hl in Hl'. injection Hl' as <-.
    exists R1, r, R2, b', l0, l. rewrite Ar in Erun. repeat split; auto.
    + apply Forall_forall. intros q Iq. assert (Jq : In q rows) by (rewrite Erows; apply in_or_app; now left).
      destruct (K q Iq) as [C | (q' & Iq' & Lq)]; [exact (incompat_fails q Jq C) |].
      rewrite Forall_forall in Efail. exact (copy_fails q q' Jq Lq (Efail q' Iq')).
    + etransitivity; [exact Ep |]. rewrite <- app_assoc. apply Permutation_app_head. symmetry. exact Hp.
  - right. split; [| exact Hm]. apply Forall_forall. intros q Jq. destruct (compat s2 tag q) eqn:C; [| exact (incompat_fails q Jq C)].
    destruct (f2_right _ _ _ q Fl) as (q' & Iq' & Lq); [apply filter_In; auto |]. rewrite Forall_forall in Hf. exact (copy_fails q q' Jq Lq (Hf q' Iq')).
Qed.
End Value.

Lemma step_missed tag e x : inhabited_all -> nth_error cs tag = Some e -> posn tag (snd (fst e)) x -> missed s3 (snd e) (fst x) -> missed s rows v.
Proof.
  intros Inh Et (i & Hb & Hi) (w & Fw & Hw). destruct (S_cases tag e Et) as (k & vars & Ek & Ef & Ht & Hn & Hr & F).
  assert (Fl : Forall2 (link s2 s3 (snd (fst e)) tag) (filter (compat s2 tag) rows) (snd e)) by (rewrite Ef; exact F). clear F.
  rewrite Ef in Hi, Fl. cbn [snd] in Hi, Fl.
  assert (V : exists vs, all_fit ctors (snd k) vs /\ (nth_error vars i = Some (fst x) -> nth_error vs i = Some w)).
  { destruct Hi as [Hi | Hi].
    - destruct (inhabit Inh (snd k) i (xv_ty (fst x)) w) as (vs & A & B); [rewrite <- Ht, nth_error_map, Hi; reflexivity | exact Fw | eauto].
    - assert (exists vs, all_fit ctors (snd k) vs) as [vs A]; [| exists vs; split; [exact A | congruence]].
      clear - Inh. induction (snd k) as [| T Ts [vs Hv]]; [exists []; constructor |]. destruct (Inh T) as [w Hw]. exists (w :: vs). now constructor. }
  destruct V as (vs & Fvs & Hvs). exists (MVariant tag vs). split; [econstructor; eassumption |].
  intros r I. destruct (row_shape r I) as [Z | (t & ps & Z & Sp & Ip)].
  - exfalso. destruct (f2_right _ _ _ r Fl) as (r' & I' & (_ & _ & L)); [apply filter_In; split; [exact I | unfold compat; now rewrite Z] |].
    destruct L as [(_ & _ & B) | (_ & c & qs & A & _)]; [| congruence]. destruct (Hw r' I') as (p & U & _). now rewrite B in U.
  - exists (QAdt t ps). split; [rewrite <- (M_in r I), <- s2_cols; exact Z |]. intros b M. inversion M as [| | | t' ps' vs' b' AM]; subst.
    destruct (f2_right _ _ _ r Fl) as (r' & I' & (_ & _ & L)); [apply filter_In; split; [exact I | unfold compat; rewrite Z; cbn; apply Nat.eqb_refl] |].
    destruct L as [(A & _) | (_ & c & qs & A & Bq & B)]; [congruence |]. rewrite Z in A. injection A as <-. cbn in Bq. injection Bq as <-.
    destruct (Hw r' I') as (p & U & Np). rewrite B in U.
    assert (J : In (mkCol (fst x) p) (unbound (zip_cols vars ps))) by (rewrite U; now left). unfold unbound in J. apply filter_In in J.
    destruct J as [J Nb]. cbn in Nb. apply in_zip in J. destruct J as (j & Jv & Jp).
    assert (j = i) as -> by (destruct (Nat.eq_dec j i) as [E | E]; [exact E |]; rewrite (Hb ps j p Sp Jp E) in Nb; discriminate).
    destruct (all_match_nth _ _ _ _ _ _ AM Jp (Hvs Jv)) as [b'' Hm]. exact (Np b'' Hm).
Qed.
End Step.

Lemma choose_i {A B} (Q : nat -> A -> B -> Prop) : forall l, (forall k x, nth_error l k = Some x -> exists y, Q k x y) ->
  exists ys, List.length ys = List.length l /\ forall k x y, nth_error l k = Some x -> nth_error ys k = Some y -> Q k x y.
Proof.
  intros l. revert Q. induction l as [| x l IH]; intros Q H; [exists []; split; [reflexivity | intros [| k]; discriminate] |].
  destruct (H O x eq_refl) as [y Hy]. destruct (IH (fun k => Q (S k))) as (ys & L & K); [intros k z E; exact (H (S k) z E) |].
  exists (y :: ys). split; [cbn; now rewrite L |]. intros [| k] a b Ea Eb; [cbn in *; congruence | exact (K k a b Ea Eb)].
Qed.
Lemma f2_of_nth {A B} (Q : A -> B -> Prop) : forall l l', List.length l = List.length l' ->
  (forall k x y, nth_error l k = Some x -> nth_error l' k = Some y -> Q x y) -> Forall2 Q l l'.
Proof.
  induction l as [| x l IH]; intros [| y l'] L H; try discriminate; constructor; [apply (H O); reflexivity |].
  apply IH; [now injection L |]. intros k a b Ea Eb. exact (H (S k) a b Ea Eb).
Qed.
Lemma claim_step n : (0 < n -> claim n)%nat -> claim (S n).
Proof.
  intros IH s rows v S P O. destruct rows as [| r0 rows'].
  - eexists. eexists. split; [reflexivity |]. split; [| split].
    + constructor; cbn; auto. apply (p_wf _ _ _ _ _ P).
    + intros B rho _ _ _. right. split; [constructor | reflexivity].
    + intros Inh _. right. destruct (Inh (xv_ty v)) as [w Hw]. exists w. split; [exact Hw | intros r []].
  - remember (r0 :: rows') as rows eqn:Erows. assert (I0 : In r0 rows) by (subst; now left).
    destruct (move_all rows s (p_wf _ _ _ _ _ P) (p_nd _ _ _ _ _ P) (p_in _ _ _ _ _ P)) as
      (u & s1 & E1 & W1 & L1 & B1 & A1 & C1 & C1' & D1 & R1 & G1 & K1 & I1 & J1).
    assert (Nx : x_next s1 = x_next s) by (unfold rest in R1; congruence).
    assert (Ms : x_missing s1 = x_missing s) by (unfold rest in R1; congruence).
    destruct (p_shape _ _ _ _ _ P r0 I0) as [Z | (p0 & Z & Sp0)].
    + (* the first row always matches *)
      eexists. eexists. split; [| split; [| split]].
      * rewrite Erows. cbn [compile_rows]. rewrite <- Erows. unfold xbind at 1. rewrite E1. unfold xbind at 1. unfold xget at 1.
        rewrite (C1 r0 I0), Z. reflexivity.
      * constructor; cbn.
        -- exact W1.
        -- lia.
        -- lia.
        -- intros r _. apply A1.
        -- intros r _ N. exact (C1' r N).
        -- intros r L E. destruct (in_dec Nat.eq_dec r rows) as [I | I]; [| now rewrite <- (C1' r I) in E].
           change (cols_of s1 r = []). now rewrite (C1 r I), E.
        -- intros a H. change (bnd s1 a = bnd s a). rewrite D1, armbinds_none by assumption. apply app_nil_r.
        -- congruence.
      * intros B rho HB HG HV. left. destruct (HV r0 I0) as [l0 H0].
        destruct (cmatch_join rho (cols_of s r0) [] (good_known _ _ (HG r0 I0))) as (lb & b & Hl & Hm & Hp); [rewrite Z; constructor |].
        exists [], r0, rows', b, l0, (l0 ++ lb). split; [exact Erows |]. split; [constructor |]. split; [exact Hm |]. split; [exact H0 |].
        split; [| apply Permutation_app_head; symmetry; now rewrite app_nil_r in Hp].
        cbn [finish tree_run]. rewrite A1, (HB r0 I0).
        match goal with |- context [bnd ?x (arm_of s r0)] => change (bnd x (arm_of s r0)) with (bnd s1 (arm_of s r0)) end.
        rewrite D1, (armbinds_one s rows r0 (p_arms _ _ _ _ _ P) I0), values_app, H0, Hl. reflexivity.
      * intros _ H. left. change (x_missing s1 = true) in H. congruence.
    + assert (Np0 : is_bind p0 = false).
      { assert (J : In (mkCol v p0) (unbound (cols_of s r0))) by (rewrite Z; now left). unfold unbound in J. apply filter_In in J.
        destruct J as [_ J]. cbn in J. now destruct (is_bind p0). }
      inversion O as [T S' Hall ET ES | T S' ks Hks Htags Hpats Hway ET ES]; subst T S'; [specialize (Hall p0 Sp0); congruence |].
      assert (Hn : (0 < n)%nat).
      { pose proof (p_depth _ _ _ _ _ P r0 I0) as H. assert (J : In (mkCol v p0) (unbound (cols_of s r0))) by (rewrite Z; now left).
        unfold unbound in J. apply filter_In in J. rewrite Forall_forall in H. specialize (H _ (proj1 J)). cbn [c_pat] in H.
        specialize (Hpats p0 Sp0). destruct p0; try easy. cbn in H. lia. }
      destruct (newcases_spec ks s1) as (cs & s2 & E2 & N2 & X2 & F2).
      assert (Cc : forall r, cols_of s2 r = cols_of s1 r) by (intros r; destruct N2 as (Na & Nb & _); unfold cols_of; now rewrite Na, Nb).
      assert (Ac : forall r, arm_of s2 r = arm_of s r) by (intros r; destruct N2 as (Na & Nb & _); rewrite <- A1; unfold arm_of; now rewrite Nb).
      assert (Ic : forall r, cidx s2 r = cidx s1 r) by (intros r; destruct N2 as (Na & Nb & _); unfold cidx; now rewrite Nb).
      assert (Lc : List.length (x_rows s2) = List.length (x_rows s)) by (destruct N2 as (Na & Nb & _); now rewrite Nb).
      assert (W2 : wfx s2) by (destruct N2 as (Na & Nb & Nc & _); unfold wfx; now rewrite Na, Nb, Nc).
      destruct (split_spec teq v (var_refl v) rows s2 cs W2 (p_nd _ _ _ _ _ P)) as (cs' & s3 & E3 & W3 & L3 & B3 & R3 & A3 & C3 & Z3 & Len3 & K3).
      { rewrite Lc. apply (p_in _ _ _ _ _ P). }
      { intros r I. rewrite Cc, (C1 r I). destruct (p_shape _ _ _ _ _ P r I) as [H | (p & H & Sp)]; [now left |]. right.
        assert (J : In (mkCol v p) (unbound (cols_of s r))) by (rewrite H; now left). unfold unbound in J. apply filter_In in J. cbn in J.
        pose proof (Hpats p Sp) as K. destruct p as [z | t | m | tag ps]; try easy. destruct K as (k & Ek & _).
        destruct (f2_nth _ _ _ F2 tag k Ek) as (e & Ee & _). exists tag, ps, e. auto. }
      { intros r r' I L D. rewrite !Ic. destruct (in_dec Nat.eq_dec r' rows) as [I' | I'].
        - now apply J1.
        - rewrite (I1 r' I'). specialize (G1 r I). rewrite Lc in L. pose proof (wfx_cidx s r' (p_wf _ _ _ _ _ P) L). lia. }
      assert (SC : forall tag e, nth_error cs' tag = Some e -> exists k vars,
         nth_error ks tag = Some k /\ fst e = (fst k, vars) /\ map xv_ty vars = snd k /\ NoDup (map xv_id vars) /\
         Forall (fun x => x_next s1 <= xv_id x < x_next s2)%nat vars /\
         Forall2 (link s2 s3 vars tag) (filter (compat s2 tag) rows) (snd e)).
      { intros tag e Ee. destruct (nth_error cs tag) as [e0 |] eqn:E0.
        - destruct (K3 tag e0 E0) as (L & EL & FL). rewrite Ee in EL. injection EL as ->.
          destruct (f2_nth' _ _ _ F2 tag e0 E0) as (k & Ek & (P1 & P2 & P3 & P4 & P5)). exists k, (snd (fst e0)).
          rewrite P2. cbn [fst snd app]. repeat split; auto. destruct e0 as [[c0 v0] r1]. cbn in *. congruence.
        - apply nth_error_None in E0. assert (tag < List.length cs')%nat by (apply nth_error_Some; congruence). lia. }
      assert (SA : List.length cs' = List.length ks) by (rewrite Len3; clear - F2; induction F2; cbn; congruence).
      destruct (choose_i (fun tag e x => ready_case n s3 e x /\ posn S tag (snd (fst e)) x) cs') as (xs & Lxs & Hxs).
      { intros tag e Ee. eapply case_ready with (s := s) (s1 := s1) (s2 := s2) (cs := cs') (rows := rows) (v := v); eassumption. }
      assert (Rd : Forall2 (ready_case n s3) cs' xs) by (apply f2_of_nth; [congruence | intros k e x Ee Ex; exact (proj1 (Hxs k e x Ee Ex))]).
      assert (Dj : ForallOrdPairs (fun e1 e2 => disj s3 (snd e1) (snd e2)) cs')
        by (eapply cases_disj with (s := s) (s1 := s1) (s2 := s2) (cs := cs') (rows := rows) (v := v); eassumption).
      destruct (loop n (IH Hn) cs' xs s3 W3 Rd Dj) as (os & s4 & E4 & F4 & S4 & M4).
      assert (Bv : branch_variable rows s1 = XOk v s1).
      { rewrite Erows. cbn [branch_variable]. rewrite <- Erows, (C1 r0 I0), Z. reflexivity. }
      exists (DSwitch (xv_id v) os None), s4. split; [| split; [| split]].
      * rewrite Erows. cbn [compile_rows]. rewrite <- Erows. unfold xbind at 1. rewrite E1. unfold xbind at 1. unfold xget at 1.
        rewrite (C1 r0 I0), Z. unfold xbind at 1. rewrite Bv, Hks. unfold xbind at 1. rewrite E2. unfold xbind at 1. rewrite E3.
        unfold xbind at 1. change (mapx _ cs' s3) with (mapx (comp_case n) cs' s3). rewrite E4. reflexivity.
      * eapply step_frame with (s := s) (s1 := s1) (s2 := s2) (cs := cs') (rows := rows) (v := v); eassumption.
      * intros B rho HB HG HV.
        assert (exists w, rho (xv_id v) = Some w /\ fits ctors (xv_ty v) w) as (w & Rw & Fw).
        { assert (J : In (mkCol v p0) (unbound (cols_of s r0))) by (rewrite Z; now left). unfold unbound in J. apply filter_In in J.
          specialize (HG r0 I0). unfold good in HG. rewrite Forall_forall in HG. exact (HG _ (proj1 J)). }
        clear Erows. inversion Fw as [T ks' tag k vs H1 H2 H3 | T w' H1]; subst; [| congruence]. rewrite Hks in H1. injection H1 as <-.
        assert (exists e, nth_error cs' tag = Some e) as [e Ee].
        { destruct (nth_error cs' tag) as [e |] eqn:Ee; [eauto |]. apply nth_error_None in Ee.
          assert (tag < List.length ks)%nat by (apply nth_error_Some; congruence). lia. }
        destruct (f2_nth _ _ _ S4 tag e Ee) as (o & Eo & (Ho1 & Ho2)).
        assert (Q : tree_run rho (finish B (DSwitch (xv_id v) os None)) = tree_run (bind_args rho (map xv_id (snd (fst e))) vs) (finish B (snd o))).
        { cbn [finish]. apply (switch_run _ _ _ _ tag vs (fst (fst e))); [exact Rw | |].
          - rewrite nth_error_map, Eo. cbn. now rewrite Ho1.
          - intros j o' Ej. rewrite nth_error_map in Ej. destruct (nth_error os j) as [oj |] eqn:Eoj; [| discriminate]. cbn in Ej. injection Ej as <-.
            destruct (f2_nth' _ _ _ S4 j oj Eoj) as (ej & Eej & (Hj & _)). cbn [fst]. rewrite Hj. cbn [fst].
            destruct (SC j ej Eej) as (kj & vj & Ekj & Efj & _). destruct (Htags j kj Ekj) as [uj Huj]. exists uj. rewrite Efj. exact Huj. }
        rewrite Q. eapply case_sem with (s := s) (s1 := s1) (s2 := s2) (cs := cs') (rows := rows) (v := v); eassumption.
      * intros Inh Hm. destruct (M4 Inh Hm) as [H | (tag & e & x & Ee & Ex & Hx)].
        -- left. unfold rest in R3. destruct N2 as (_ & _ & _ & Nm). congruence.
        -- right. eapply step_missed with (s := s) (s1 := s1) (s2 := s2) (cs := cs') (rows := rows) (v := v); try eassumption. exact (proj2 (Hxs tag e x Ee Ex)).
Qed.

Theorem claim_all n : claim (S n).
Proof. induction n as [| n IH]; apply claim_step; [intros H; lia | intros _; exact IH]. Qed.

(** ** The whole [iguala] *)
Section Top.
Variables (target : xvar) (arms : list xpat) (dict : list (text * nat)) (next : nat).
Let m := List.length arms.
Let s0 : xst := mkXst (map (fun p => [mkCol target p]) arms) (map (fun i => (i, i)) (seq 0 m)) (repeat [] m) dict [] next [] false.

Lemma s0_row i p : nth_error arms i = Some p -> nth_error (x_rows s0) i = Some (i, i).
Proof.
  intros E. assert (i < m)%nat by (apply nth_error_Some; congruence). cbn. rewrite nth_error_map.
  rewrite (nth_error_nth' (seq 0 m) O) by (now rewrite seq_length). rewrite seq_nth by assumption. reflexivity.
Qed.
Lemma s0_cols i p : nth_error arms i = Some p -> cols_of s0 i = [mkCol target p].
Proof.
  intros E. unfold cols_of. rewrite (s0_row i p E). cbn. apply nth_error_nth with (d := []). rewrite nth_error_map, E. reflexivity.
Qed.
Lemma s0_arm i p : nth_error arms i = Some p -> arm_of s0 i = i.
Proof. intros E. unfold arm_of. now rewrite (s0_row i p E). Qed.
Lemma s0_bnd a : bnd s0 a = [].
Proof.
  unfold bnd. cbn. destruct (Nat.lt_ge_cases a m) as [L | L]; [now rewrite nth_repeat | apply nth_overflow; now rewrite repeat_length].
Qed.
Lemma seq_row r : In r (seq 0 m) -> exists p, nth_error arms r = Some p.
Proof.
  intros I. apply in_seq in I. destruct (nth_error arms r) as [p |] eqn:E; [eauto |]. apply nth_error_None in E. unfold m in I. lia.
Qed.
Lemma size_depth p : (depth p <= pat_size p)%nat.
Proof.
  assert (G : forall k p, (pat_size p <= k)%nat -> (depth p <= pat_size p)%nat); [| apply (G (pat_size p) p); lia].
  induction k as [| k IH]; intros [z | t | n | tag args] H; cbn [depth pat_size] in *; try lia.
  apply le_n_S. assert (L : (fold_right (fun p n => pat_size p + n) 0 args <= k)%nat) by lia. clear H. induction args as [| q args IHa]; cbn in *; [lia |].
  specialize (IH q). specialize (IHa ltac:(lia)). lia.
Qed.
Lemma arm_size p : In p arms -> (pat_size p <= fold_right (fun p n => pat_size p + n) 0 arms)%nat.
Proof. induction arms as [| q l IH]; intros []; cbn [fold_right]; [subst; lia | specialize (IH H); lia]. Qed.

Lemma pre0 f : (fold_right (fun p n => pat_size p + n) 0 arms < f)%nat -> (xv_id target < next)%nat ->
  pre s0 (seq 0 m) target (fun p => In p arms) f.
Proof.
  intros Hf Hn. constructor.
  - apply wfx_nth. intros r c a E. assert (L : (r < List.length (x_rows s0))%nat) by (apply nth_error_Some; congruence).
    cbn in L. rewrite map_length, seq_length in L. destruct (seq_row r) as [p Ep]; [apply in_seq; lia |].
    rewrite (s0_row r p Ep) in E. injection E as <- <-. cbn. rewrite map_length, repeat_length. auto.
  - apply seq_NoDup.
  - apply Forall_forall. intros r I. apply in_seq in I. cbn. rewrite map_length, seq_length. lia.
  - rewrite (map_ext_in _ (fun r => r)), map_id; [apply seq_NoDup |]. intros r I. destruct (seq_row r I) as [p Ep]. exact (s0_arm r p Ep).
  - intros r I. destruct (seq_row r I) as [p Ep]. rewrite (s0_cols r p Ep). unfold unbound. cbn. destruct (is_bind p); [now left |].
    right. exists p. split; [reflexivity |]. exact (nth_error_In _ _ Ep).
  - intros r I. destruct (seq_row r I) as [p Ep]. rewrite (s0_cols r p Ep). repeat constructor. exact Hn.
  - intros r I. rewrite s0_bnd. constructor.
  - intros r I. destruct (seq_row r I) as [p Ep]. rewrite (s0_cols r p Ep). repeat constructor. cbn [c_pat].
    pose proof (size_depth p). pose proof (arm_size p (nth_error_In _ _ Ep)). lia.
Qed.

Theorem compile_correct : one_way ctors (xv_ty target) (fun p => In p arms) -> (xv_id target < next)%nat ->
  exists t s, compile_iguala teq ctors inf target arms dict next = XOk t s /\
    (x_missing s = false -> forall w, fits ctors (xv_ty target) w ->
       exists i b b', first_match arms w i b /\ tree_run (only (xv_id target) w) t = Some (i, b') /\ Permutation b' b) /\
    (inhabited_all -> x_missing s = true -> exists w, fits ctors (xv_ty target) w /\ forall p, In p arms -> no_match p w).
Proof.
  intros Ow Hn. destruct (claim_all _ s0 (seq 0 m) target _ (pre0 (S (1 + fold_right (fun p n => pat_size p + n)%nat 0%nat arms)) ltac:(lia) Hn) Ow)
    as (t & s & E & F & Sm & Ms).
  exists (finish (x_binds s) t), s. split; [| split].
  - unfold compile_iguala. fold m. fold s0. change (2 + ?a)%nat with (S (1 + a)). rewrite E. reflexivity.
  - intros Hm w Fw.
    assert (Ro : only (xv_id target) w (xv_id target) = Some w) by (unfold only; now rewrite Nat.eqb_refl).
    destruct (Sm (x_binds s) (only (xv_id target) w)) as [(pr & r & post & b & l0 & l & Er & Ef & Em & Ev & Et & Ep) | [_ Hm']].
    + intros r I. reflexivity.
    + intros r I. destruct (seq_row r I) as [p Hp]. rewrite (s0_cols r p Hp). repeat constructor. exists w. auto.
    + intros r I. rewrite s0_bnd. exists []. reflexivity.
    + assert (Ir : In r (seq 0 m)) by (rewrite Er; apply in_elt). destruct (seq_row r Ir) as [p Hp].
      rewrite (s0_arm r p Hp) in *. rewrite s0_bnd in Ev. injection Ev as <-. cbn [app] in Ep. rewrite (s0_cols r p Hp) in Em.
      exists r, b, l. split; [| split; [exact Et | exact Ep]]. split.
      * exists p. split; [exact Hp |]. now apply (one_col target (only (xv_id target) w) p w b Ro).
      * intros j q L Hq b' Hmq. assert (Ij : In j pr).
        { assert (J : In j (seq 0 m)) by (apply in_seq in Ir; apply in_seq; lia). rewrite Er in J. apply in_app_or in J. destruct J as [J | [J | J]]; [exact J | lia |].
          exfalso. assert (K : forall k a x1 x2, seq a k = x1 ++ r :: x2 -> In j x2 -> (r < j)%nat).
          { clear. induction k as [| k IH]; intros a [| y x1] x2 E I; try discriminate; cbn in E.
            - injection E as E1 E2. subst. apply in_seq in I. lia.
            - injection E as E1 E2. exact (IH (S a) x1 x2 E2 I). }
          specialize (K m 0%nat pr post Er J). lia. }
        rewrite Forall_forall in Ef. specialize (Ef j Ij). rewrite (s0_cols j q Hq) in Ef. apply (Ef b'). now apply (one_col target (only (xv_id target) w) q w b' Ro).
    + congruence.
  - intros Inh Hm. destruct (Ms Inh Hm) as [H | (w & Fw & Hw)]; [discriminate |]. exists w. split; [exact Fw |].
    intros p I. destruct (In_nth_error _ _ I) as [i Ei]. assert (Li : (i < m)%nat) by (apply nth_error_Some; congruence).
    destruct (Hw i) as (q & U & Nq); [apply in_seq; lia |]. rewrite (s0_cols i p Ei) in U. unfold unbound in U. cbn in U. destruct (is_bind p); [discriminate |].
    cbn in U. injection U as <-. exact Nq.
Qed.
End Top.
End Tree.
