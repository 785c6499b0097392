(** An [iguala] over literals never runs its default arm. *)
From Verif Require Import Base Bson Types Sym Exhaust Spec_Match MatchFacts.
From Coq Require Import Lia PeanoNat.

Section Lit.
Variable teq : cty -> cty -> bool.
Variable ctors : cty -> option (list (dcons * list cty)).
Variable inf : cty -> bool.
Variables (target : xvar) (arms : list xpat).

Definition own (s : xst) : Prop := Forall (Forall (fun c => c_var c = target /\ In (c_pat c) arms)) (x_cols s).
Lemma own_cols s r : own s -> Forall (fun c => c_var c = target /\ In (c_pat c) arms) (cols_of s r).
Proof.
  intros H. unfold cols_of. destruct (nth_error (x_rows s) r) as [[c a] |]; [| constructor].
  destruct (nth_in_or_default c (x_cols s) []) as [I | ->]; [| constructor]. unfold own in H. rewrite Forall_forall in H. exact (H _ I).
Qed.
Lemma own_move s r s' u : own s -> move_patterns r s = XOk u s' -> own s' /\ x_rows s' = upd (x_rows s) r (fun x => (List.length (x_cols s), snd x)).
Proof.
  intros H E. unfold move_patterns in E. injection E as <- <-. split; [| reflexivity]. unfold own. cbn. apply Forall_app. split; [exact H |].
  constructor; [| constructor]. pose proof (own_cols s r H) as K. rewrite Forall_forall in *. intros c I. apply filter_In in I. apply K, I.
Qed.
Lemma own_moves rows : forall s s' u, own s -> mapx move_patterns rows s = XOk u s' -> own s'.
Proof.
  induction rows as [| r rows IH]; intros s s' u H E; cbn [mapx] in E.
  - injection E as _ <-. exact H.
  - unfold xbind at 1 in E. destruct (move_patterns r s) as [a s1 | |] eqn:E1; try discriminate. unfold xbind at 1 in E.
    destruct (mapx move_patterns rows s1) as [b s2 | |] eqn:E2; try discriminate. injection E as _ <-. apply (IH s1 s2 b); [apply (own_move s r s1 a); assumption | exact E2].
Qed.
Lemma pop_sub v : forall l c r, pop_col teq v l = Some (c, r) -> In c l /\ incl r l.
Proof.
  induction l as [| a l IH]; intros c r E; cbn in E; [discriminate |]. destruct (var_eqb teq (c_var a) v).
  - injection E as <- <-. split; [now left | apply incl_tl, incl_refl].
  - destruct (pop_col teq v l) as [[x r'] |] eqn:P; [| discriminate]. injection E as <- <-. destruct (IH _ _ eq_refl) as [A B].
    split; [now right |]. intros y [<- | I]; [now left | right; now apply B].
Qed.
Lemma own_remove row v s o s' : own s -> remove_column teq row v s = XOk o s' -> own s' /\ (forall c, o = Some c -> In (c_pat c) arms).
Proof.
  intros H E. unfold remove_column in E. destruct (nth_error (x_rows s) row) as [[c a] |] eqn:R; [| discriminate].
  destruct (pop_col teq v (nth c (x_cols s) [])) as [[k rest] |] eqn:P.
  - injection E as <- <-. pose proof (own_cols s row H) as K. unfold cols_of in K. rewrite R in K. destruct (pop_sub _ _ _ _ P) as [A B].
    rewrite Forall_forall in K. split.
    + unfold own. cbn. apply Forall_forall. intros l I. apply In_nth_error in I. destruct I as [j Ej]. rewrite nth_error_upd in Ej.
      destruct (Nat.eqb j c).
      * destruct (nth_error (x_cols s) j) as [l0 |]; [| discriminate]. cbn in Ej. injection Ej as <-. apply Forall_forall. intros x I. apply K, B, I.
      * unfold own in H. rewrite Forall_forall in H. apply H, (nth_error_In _ j), Ej.
    + intros c0 E. injection E as <-. apply K, A.
  - injection E as <- <-. split; [exact H | discriminate].
Qed.

Definition lit_keys (raw : list (dcons * list nat)) : Prop := Forall (fun e => exists p, In p arms /\ lit_cons p = Some (fst e)) raw.
Lemma keys_upd raw i f : lit_keys raw -> (forall e, fst (f e) = fst e) -> lit_keys (upd raw i f).
Proof.
  intros H K. unfold lit_keys. apply Forall_forall. intros e I. apply In_nth_error in I. destruct I as [j Ej]. rewrite nth_error_upd in Ej.
  unfold lit_keys in H. rewrite Forall_forall in H. destruct (Nat.eqb j i).
  - destruct (nth_error raw j) as [e0 |] eqn:E0; [| discriminate]. cbn in Ej. injection Ej as <-. rewrite K. exact (H _ (nth_error_In _ _ E0)).
  - exact (H _ (nth_error_In _ _ Ej)).
Qed.
Lemma split_keys v : forall rows raw tested fb s raw' fb' s', own s -> lit_keys raw ->
  split_infinite teq rows v raw tested fb s = XOk (raw', fb') s' -> lit_keys raw'.
Proof.
  induction rows as [| r rows IH]; intros raw tested fb s raw' fb' s' H K E; cbn [split_infinite] in E.
  - injection E as <- _ _. exact K.
  - unfold xbind at 1 in E. destruct (remove_column teq r v s) as [o s1 | |] eqn:R; try discriminate. destruct (own_remove _ _ _ _ _ H R) as [H1 Ho].
    destruct o as [c |]; [| exact (IH _ _ _ _ _ _ _ H1 K E)].
    unfold xbind at 1 in E. destruct (lit_cons (c_pat c)) as [k |] eqn:Lk; [| discriminate]. cbn [xmust xret] in E.
    assert (Hk : lit_keys (raw ++ [(k, [r])])).
    { apply Forall_app. split; [exact K |]. repeat constructor. exists (c_pat c). split; [now apply Ho | exact Lk]. }
    destruct (lookup_key k tested) as [[| i] |]; try exact (IH _ _ _ _ _ _ _ H1 Hk E).
    refine (IH _ _ _ _ _ _ _ H1 _ E). apply keys_upd; [exact K | reflexivity].
Qed.

Lemma mapx_keys fuel fb : forall (raw : list (dcons * list nat)) s os s',
  mapx (fun e => xbind (compile_rows teq ctors inf fuel (snd e ++ fb)) (fun t => xret (fst e, @nil nat, t))) raw s = XOk os s' ->
  map (fun o : dcons * list nat * dtree => fst (fst o)) os = map fst raw.
Proof.
  induction raw as [| e raw IH]; intros s os s' E; cbn [mapx] in E; [now injection E as <- _ |].
  unfold xbind at 1 in E. unfold xbind at 1 in E. destruct (compile_rows teq ctors inf fuel (snd e ++ fb) s) as [t s1 | |]; try discriminate. cbn [xret] in E.
  unfold xbind at 1 in E. destruct (mapx _ raw s1) as [os' s2 | |] eqn:E2; try discriminate. injection E as <- _. cbn. f_equal. exact (IH _ _ _ E2).
Qed.

Definition literal (p : xpat) : bool := match p with QInt _ | QStr _ => true | _ => false end.
Theorem default_never_runs dict next t s p0 rest_arms w : arms = p0 :: rest_arms -> literal p0 = true ->
  ctors (xv_ty target) = None ->
  compile_iguala teq ctors inf target arms dict next = XOk t s ->
  (forall p, In p arms -> literal p = true -> no_match p w) ->
  tree_run (only (xv_id target) w) t = None.
Proof.
  intros Ha Lp Hc E Hw. unfold compile_iguala in E. set (s0 := mkXst _ _ _ _ _ _ _ _) in E.
  assert (O0 : own s0).
  { unfold own, s0. cbn. apply Forall_forall. intros l I. apply in_map_iff in I. destruct I as (p & <- & I). repeat constructor. exact I. }
  destruct (compile_rows teq ctors inf _ _ s0) as [t0 s1 | |] eqn:E0; try discriminate. injection E as <- <-.
  assert (En : exists k, seq 0 (List.length arms) = O :: k) by (rewrite Ha; cbn; eauto). destruct En as [k En]. rewrite En in E0.
  change (2 + ?a)%nat with (S (1 + a)) in E0. cbn [compile_rows] in E0. unfold xbind at 1 in E0.
  destruct (mapx move_patterns (O :: k) s0) as [u s2 | |] eqn:Em; try discriminate. pose proof (own_moves _ _ _ _ O0 Em) as O2.
  assert (C0 : cols_of s2 O = [mkCol target p0]).
  { assert (W0 : wfx s0).
    { apply wfx_nth. intros r c a Er. unfold s0 in Er. cbn in Er. apply nth_error_In in Er. apply in_map_iff in Er. destruct Er as (i & Ei & I).
      injection Ei as <- <-. apply in_seq in I. unfold s0. cbn. rewrite map_length, repeat_length. lia. }
    assert (Nd : NoDup (O :: k)) by (rewrite <- En; apply seq_NoDup).
    destruct (move_all (O :: k) s0 W0 Nd) as (u' & s2' & Em' & _ & _ & _ & _ & Ci & _).
    { rewrite <- En. apply Forall_forall. intros r I. apply in_seq in I. unfold s0. cbn. rewrite map_length, seq_length. lia. }
    rewrite Em in Em'. injection Em' as _ <-. rewrite (Ci O) by now left. unfold s0, cols_of. rewrite En. cbn. rewrite Ha. cbn.
    unfold unbound. cbn. destruct p0; try discriminate; reflexivity. }
  unfold xbind at 1 in E0. unfold xget at 1 in E0. rewrite C0 in E0.
  unfold xbind at 1 in E0. cbn [branch_variable] in E0. rewrite C0 in E0. cbn [fold_left c_var] in E0. rewrite Hc in E0.
  destruct (inf (xv_ty target)); [| discriminate]. unfold xbind at 1 in E0.
  destruct (split_infinite teq (O :: k) target [] [] [] s2) as [[raw fb] s3 | |] eqn:Es; try discriminate.
  pose proof (split_keys _ _ _ _ _ _ _ _ _ O2 (Forall_nil _) Es) as K. unfold xbind at 1 in E0.
  destruct (mapx _ raw s3) as [os s4 | |] eqn:Ex; try discriminate. pose proof (mapx_keys _ _ _ _ _ _ Ex) as Ko. unfold xbind at 1 in E0.
  destruct (compile_rows teq ctors inf _ fb s4) as [f s5 | |]; try discriminate. injection E0 as <- <-.
  cbn [finish tree_run]. unfold only at 1. rewrite Nat.eqb_refl.
  assert (T : forall c, In c (map (fun o : dcons * list nat * dtree => fst (fst o)) os) -> test c w = false).
  { intros c I. rewrite Ko in I. apply in_map_iff in I. destruct I as (e & <- & I). unfold lit_keys in K. rewrite Forall_forall in K.
    destruct (K e I) as (p & Ip & Lc). specialize (Hw p Ip). destruct p as [z | tx | n | tag args]; try discriminate; cbn in Lc; injection Lc as Lc; rewrite <- Lc.
    - destruct w as [tg a | z' | tx']; try reflexivity. cbn. destruct (Z.eqb z z') eqn:Q; [| reflexivity]. apply Z.eqb_eq in Q as ->.
      exfalso. exact (Hw eq_refl [] (MatchInt z')).
    - destruct w as [tg a | z' | tx']; try reflexivity. cbn. unfold text_eqb. destruct (list_eq_dec N.eq_dec tx tx') as [-> | ]; [| reflexivity].
      exfalso. exact (Hw eq_refl [] (MatchStr tx')). }
  clear - T. induction os as [| [[c i] b] os IH]; [reflexivity |]. cbn [map fst snd]. rewrite (T c) by now left. apply IH. intros c' I. apply T. now right.
Qed.
End Lit.
