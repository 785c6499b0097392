(** Soundness of [Spec_Typing]: well-typed code never gets stuck in the reference
    semantics, and every value it computes has its static type. *)
From Verif Require Import Base BaseFacts Float Dec Value Ast Types Spec_Types Spec_Value Spec_Tables Spec_Show ShowFacts Sem Spec_Typing.
Local Open Scope nat_scope.

(** ** Lists *)
Lemma assoc_set_same {A} k (v : A) l : assoc k (assoc_set l k v) = Some v.
Proof.
  induction l as [|[k' v'] l IH]; cbn; [rewrite text_eqb_refl; reflexivity|].
  destruct (text_eqb k k') eqn:X; cbn; [rewrite text_eqb_refl|rewrite X]; auto.
Qed.
Lemma assoc_set_other {A} k k' (v : A) l : k <> k' -> assoc k (assoc_set l k' v) = assoc k l.
Proof.
  intros N. induction l as [|[q v'] l IH]; cbn.
  - destruct (text_eqb k k') eqn:X; [apply text_eqb_eq in X; congruence|reflexivity].
  - destruct (text_eqb k' q) eqn:X; cbn.
    + apply text_eqb_eq in X as <-. destruct (text_eqb k k') eqn:Y; [apply text_eqb_eq in Y; congruence|reflexivity].
    + rewrite IH. reflexivity.
Qed.
Lemma text_dec (a b : text) : a = b \/ a <> b.
Proof. destruct (text_eqb a b) eqn:X; [left; apply text_eqb_eq; exact X|right; intros ->; rewrite text_eqb_refl in X; discriminate]. Qed.
Lemma nth_list_set {A} (l : list A) i x j :
  nth_error (list_set l i x) j = if Nat.eqb i j then (match nth_error l j with Some _ => Some x | None => None end) else nth_error l j.
Proof.
  revert i j. induction l as [|y l IH]; intros [|i] [|j]; cbn; try reflexivity; [|].
  - destruct (Nat.eqb i j); reflexivity.
  - apply IH.
Qed.
Lemma list_set_length {A} (l : list A) i x : List.length (list_set l i x) = List.length l.
Proof. revert i. induction l as [|y l IH]; intros [|i]; cbn; auto. Qed.
Lemma f2_nth {A B} (P : A -> B -> Prop) l k : Forall2 P l k ->
  forall i a, nth_error l i = Some a -> exists b, nth_error k i = Some b /\ P a b.
Proof. induction 1; intros [|i] c H1; try discriminate; [injection H1 as <-; eexists; split; [reflexivity|assumption]|apply IHForall2, H1]. Qed.
Lemma f2_len {A B} (P : A -> B -> Prop) l k : Forall2 P l k -> List.length l = List.length k.
Proof. induction 1; cbn; congruence. Qed.
Lemma f2_of_nth {A B} (P : A -> B -> Prop) l k : List.length l = List.length k ->
  (forall i a b, nth_error l i = Some a -> nth_error k i = Some b -> P a b) -> Forall2 P l k.
Proof.
  revert k. induction l as [|a l IH]; intros [|b k] L H; try discriminate; constructor.
  - apply (H 0); reflexivity.
  - apply IH; [injection L; auto|]. intros i x y Hx Hy. apply (H (S i)); assumption.
Qed.

Section Sound.
Variable E : ext.
Variable S : senv.
Variable m : option N.
Variable R : text -> option (list (text * ty)).
Hypothesis not_lib : m <> Some 0%N.
Hypothesis release : debug_build E = false.

(** ** Extending the heap typing *)
Definition hext (H H' : hty) : Prop := exists e, H' = (H ++ e)%list.
Lemma hext_refl H : hext H H. Proof. exists []. symmetry. apply app_nil_r. Qed.
Lemma hext_trans a b c : hext a b -> hext b c -> hext a c.
Proof. intros [x ->] [y ->]. exists (x ++ y)%list. symmetry. apply app_assoc. Qed.
Lemma hext_nth H H' i k : hext H H' -> nth_error H i = Some k -> nth_error H' i = Some k.
Proof. intros [e ->] N. rewrite nth_error_app1; [exact N|]. apply nth_error_Some. congruence. Qed.
Lemma vt_ext H H' v t : hext H H' -> vt H v t -> vt H' v t.
Proof. intros X. induction 1; try (constructor; eauto using hext_nth; fail); try (apply vt_vec || apply vt_obj; eauto using hext_nth). Qed.
Lemma cell_ext H H' k c : hext H H' -> cell_ok R H k c -> cell_ok R H' k c.
Proof.
  intros X. destruct k, c; cbn; auto.
  - apply Forall_impl. intros v. apply vt_ext, X.
  - intros (decl & A & B). exists decl. split; [exact A|]. intros f t F. destruct (B f t F) as (v & V & T). exists v. split; [exact V|eapply vt_ext; eassumption].
Qed.
Lemma sub_vt H v t u : vt H v t -> sub t u -> vt H v u.
Proof.
  intros V X. induction X; [exact V| |].
  - inversion V; subst. apply vt_none.
  - apply vt_some. auto.
Qed.

(** ** Typed configurations *)
Definition lev_ok (H : hty) (ls : list (text * ty)) (vs : list (text * value)) : Prop :=
  forall n, match assoc n ls, assoc n vs with
            | Some t, Some v => vt H v t
            | None, None => True
            | _, _ => False
            end.
Record cok (W : genv) (H : hty) (L : list (list (text * ty))) (c : cfg) : Prop := mkCok {
  ck_heap : heap_ok R H (w_heap (k_w c));
  ck_loc : Forall2 (lev_ok H) L (k_l c);
  ck_glob : forall n t, assoc n (ge_var W) = Some t -> exists v, k_g c m n = Some v /\ vt H v t;
  ck_rec : forall n, In n (ge_rec W) -> exists fs, k_g c m n = Some (VRegisto n fs);
  ck_lib : forall n v, assoc n (embutidos_exports E) = Some v -> k_g c (Some 0%N) n = Some v
}.
(** One environment inside another. *)
Record gle (g W : genv) : Prop := mkGle {
  gl_var : forall n t, assoc n (ge_var g) = Some t -> assoc n (ge_var W) = Some t;
  gl_fun : forall n t, assoc n (ge_fun g) = Some t -> assoc n (ge_fun W) = Some t;
  gl_rec : incl (ge_rec g) (ge_rec W)
}.
Lemma gle_refl g : gle g g. Proof. constructor; auto. apply incl_refl. Qed.
Lemma gle_trans a b c : gle a b -> gle b c -> gle a c.
Proof. intros [A B C] [A' B' C']. constructor; auto. eapply incl_tran; eassumption. Qed.
(** What the declared names mean in the program. *)
Record wok (W : genv) : Prop := mkWok {
  wk_var : forall n t, assoc n (ge_var W) = Some t -> se_imp S m n = None /\ ~ In n (ge_rec W);
  wk_rec : forall n, In n (ge_rec W) -> se_imp S m n = None;
  wk_fun : forall f ts t, assoc f (ge_fun W) = Some (ts, t) ->
    se_imp S m f = None /\
    exists names ch g, se_fun S m f = Some (mkFD names ch) /\ gle g W /\ fun_ty S m R g names ts t ch
}.

Lemma lev_ext H H' ls vs : hext H H' -> lev_ok H ls vs -> lev_ok H' ls vs.
Proof. intros X A n. specialize (A n). destruct (assoc n ls), (assoc n vs); auto. eapply vt_ext; eassumption. Qed.
Lemma levs_ext H H' L l : hext H H' -> Forall2 (lev_ok H) L l -> Forall2 (lev_ok H') L l.
Proof. intros X. induction 1; constructor; auto. eapply lev_ext; eassumption. Qed.
(** Replacing the heap by a typed one. *)
Lemma cok_heap W H H' L c w : cok W H L c -> hext H H' -> heap_ok R H' (w_heap w) -> cok W H' L (set_w c w).
Proof.
  intros [A B C D F] X O'. constructor; cbn; auto.
  - eapply levs_ext; eassumption.
  - intros n t T. destruct (C n t T) as (v & V & P). exists v. split; [exact V|eapply vt_ext; eassumption].
Qed.
Lemma cok_world W H L c w : cok W H L c -> w_heap w = w_heap (k_w c) -> cok W H L (set_w c w).
Proof. intros A B. eapply cok_heap; [exact A|apply hext_refl|rewrite B; apply A]. Qed.
Lemma cok_levels W H L c L' l' : cok W H L c -> Forall2 (lev_ok H) L' l' -> cok W H L' (set_l c l').
Proof. intros [A B C D F] X. constructor; cbn; auto. Qed.
Lemma cok_ext_levels W H H' L c L' l' : cok W H' L c -> hext H H' -> Forall2 (lev_ok H) L' l' -> cok W H' L' (set_l c l').
Proof. intros A X B. eapply cok_levels; [exact A|eapply levs_ext; eassumption]. Qed.

(** ** Heaps *)
Lemma heap_get H h l k : heap_ok R H h -> nth_error H l = Some k -> exists c, nth_error h l = Some c /\ cell_ok R H k c.
Proof. intros A B. exact (f2_nth _ _ _ A _ _ B). Qed.
Lemma heap_set H h l k c : heap_ok R H h -> nth_error H l = Some k -> cell_ok R H k c -> heap_ok R H (list_set h l c).
Proof.
  intros A B C. apply f2_of_nth; [rewrite list_set_length; apply (f2_len _ _ _ A)|].
  intros i a b Ha Hb. rewrite nth_list_set in Hb. destruct (Nat.eqb l i) eqn:Q.
  - apply Nat.eqb_eq in Q as ->. destruct (nth_error h i); [|discriminate]. injection Hb as <-. congruence.
  - destruct (f2_nth _ _ _ A _ _ Ha) as (b' & B1 & B2). congruence.
Qed.
Lemma cells_ext H H' J h : hext H H' -> Forall2 (cell_ok R H) J h -> Forall2 (cell_ok R H') J h.
Proof. intros X. induction 1; constructor; auto. eapply cell_ext; eassumption. Qed.
Lemma heap_alloc H w k c w' l : halloc w c = (w', l) -> heap_ok R H (w_heap w) -> cell_ok R (H ++ [k]) k c ->
  heap_ok R (H ++ [k]) (w_heap w') /\ nth_error (H ++ [k])%list l = Some k.
Proof.
  unfold halloc. intros Q A B. injection Q as <- <-. cbn. split.
  - apply Forall2_app; [|constructor; [exact B|constructor]].
    eapply cells_ext; [exists [k]; reflexivity|exact A].
  - rewrite <- (f2_len _ _ _ A), nth_error_app2, Nat.sub_diag by reflexivity. reflexivity.
Qed.

(** ** Reading and writing variables *)
Lemma look_ok H L l n : Forall2 (lev_ok H) L l ->
  match tlook L n, look l n with Some t, Some v => vt H v t | None, None => True | _, _ => False end.
Proof.
  induction 1 as [|ls vs L l A F IH]; cbn; [exact I|]. specialize (A n).
  destruct (assoc n ls), (assoc n vs); try tauto.
Qed.
Lemma update_ok H L l n t v : Forall2 (lev_ok H) L l -> tlook L n = Some t -> vt H v t ->
  exists l', update l n v = Some l' /\ Forall2 (lev_ok H) L l'.
Proof.
  induction 1 as [|ls vs L l A F IH]; cbn; [discriminate|]. intros T V. pose proof (A n) as An.
  destruct (assoc n ls) as [u|] eqn:Q1, (assoc n vs) as [w|] eqn:Q2; try tauto.
  - injection T as ->. eexists. split; [reflexivity|]. constructor; [|exact F]. intros k. specialize (A k).
    destruct (text_dec k n) as [->|N].
    + rewrite assoc_set_same, Q1. exact V.
    + rewrite assoc_set_other by exact N. exact A.
  - destruct (IH T V) as (l' & U & F'). rewrite U. eexists. split; [reflexivity|]. constructor; assumption.
Qed.
Lemma update_none H L l n v : Forall2 (lev_ok H) L l -> tlook L n = None -> update l n v = None.
Proof.
  induction 1 as [|ls vs L l A F IH]; cbn; [reflexivity|]. intros T. specialize (A n).
  destruct (assoc n ls), (assoc n vs); try discriminate; try tauto. rewrite IH by exact T. reflexivity.
Qed.
Lemma omod_eqb_eq a b : omod_eqb a b = true <-> a = b.
Proof.
  destruct a, b; cbn; try (split; [discriminate|congruence]); try (split; reflexivity).
  rewrite N.eqb_eq. split; congruence.
Qed.
Lemma read_ok W G H c n t : wok W -> gle (te_g G) W -> cok W H (te_loc G) c -> var_type G n = Some t ->
  exists v, read_var S c m n = Done (OVal v) c /\ vt H v t.
Proof.
  intros Wk Gl C V. unfold var_type in V. unfold read_var, var_value.
  pose proof (look_ok _ _ _ n (ck_loc _ _ _ _ C)) as A. destruct (tlook (te_loc G) n) as [u|].
  - injection V as ->. destruct (look (k_l c) n) as [v|]; [|tauto]. exists v. auto.
  - destruct (look (k_l c) n); [tauto|]. apply (gl_var _ _ Gl) in V. destruct (ck_glob _ _ _ _ C _ _ V) as (v & B & D).
    unfold global_value. rewrite (proj1 (wk_var _ Wk _ _ V)), B. exists v. auto.
Qed.
Lemma set_global_same c n v : k_g (set_global c m n v) m n = Some v.
Proof. cbn. rewrite (proj2 (omod_eqb_eq m m) eq_refl), text_eqb_refl. reflexivity. Qed.
Lemma set_global_other c n v n' : n' <> n -> k_g (set_global c m n v) m n' = k_g c m n'.
Proof.
  intros N. cbn. destruct (text_eqb n n') eqn:X; [apply text_eqb_eq in X; congruence|]. rewrite Bool.andb_false_r. reflexivity.
Qed.
Lemma set_global_lib c n v n' : k_g (set_global c m n v) (Some 0%N) n' = k_g c (Some 0%N) n'.
Proof.
  cbn. destruct (omod_eqb m (Some 0%N)) eqn:X; [apply omod_eqb_eq in X; contradiction|]. reflexivity.
Qed.
Lemma write_ok W G H c n t v : wok W -> gle (te_g G) W -> cok W H (te_loc G) c -> var_type G n = Some t -> vt H v t ->
  exists c', write_var c m n v = Done ONorm c' /\ cok W H (te_loc G) c'.
Proof.
  intros Wk Gl C T V. unfold var_type in T. unfold write_var. destruct (tlook (te_loc G) n) as [u|] eqn:Q.
  - injection T as ->. destruct (update_ok _ _ _ _ _ _ (ck_loc _ _ _ _ C) Q V) as (l' & U & F). rewrite U.
    eexists. split; [reflexivity|]. eapply cok_levels; eassumption.
  - rewrite (update_none _ _ _ _ v (ck_loc _ _ _ _ C) Q). eexists. split; [reflexivity|].
    apply (gl_var _ _ Gl) in T. destruct (wk_var _ Wk _ _ T) as [I1 I2]. destruct C as [A B D F K].
    constructor; auto.
    + intros n' t' T'. destruct (text_dec n' n) as [->|N].
      * exists v. rewrite set_global_same. split; [reflexivity|]. congruence.
      * rewrite set_global_other by exact N. auto.
    + intros n' I'. destruct (text_dec n' n) as [->|N]; [contradiction|]. rewrite set_global_other by exact N. auto.
    + intros n' v' A'. rewrite set_global_lib. auto.
Qed.

(** ** Results *)
Definition passes (P : res -> Prop) : Prop := (forall e w, P (Fail e w)) /\ P Fuel.
Definition eok W (H : hty) L (t : ty) (r : res) : Prop :=
  match r with
  | Done (OVal v) c => exists H', hext H H' /\ cok W H' L c /\ vt H' v t
  | Fail _ _ | Fuel => True
  | _ => False
  end.
Lemma eok_bind W H L t r f P : passes P -> eok W H L t r ->
  (forall v c H', hext H H' -> cok W H' L c -> vt H' v t -> P (f v c)) -> P (bindv r f).
Proof.
  intros [P1 P2] X K. destruct r as [[]| | |]; cbn in *; try contradiction; auto.
  destruct X as (H' & A & B & C). eapply K; eassumption.
Qed.
Lemma eok_mono W H H' L t r : hext H H' -> eok W H' L t r -> eok W H L t r.
Proof.
  intros X. destruct r as [[]| | |]; cbn; auto. intros (J & A & B & C). exists J. split; [eapply hext_trans; eassumption|auto].
Qed.
Lemma eok_passes W H L t : passes (eok W H L t). Proof. split; cbn; auto. Qed.
Lemma eok_val W H H' L t c v : hext H H' -> cok W H' L c -> vt H' v t -> eok W H L t (Done (OVal v) c).
Proof. intros. cbn. exists H'. auto. Qed.
Lemma eok_here W H L t c v : cok W H L c -> vt H v t -> eok W H L t (Done (OVal v) c).
Proof. intros. eapply eok_val; eauto using hext_refl. Qed.
Lemma prom_ok W H L pr t u r : eok W H L t r -> prom pr t u -> eok W H L u (promote pr r).
Proof.
  unfold prom, promote. destruct pr; [|intros A ->; exact A]. intros A [-> ->].
  eapply eok_bind; [apply eok_passes|exact A|]. intros v c H' X C V. inversion V; subst. eapply eok_val; eauto. constructor.
Qed.
Lemma sub_eok W H L t u r : eok W H L t r -> sub t u -> eok W H L u r.
Proof.
  destruct r as [[]| | |]; cbn; auto. intros (J & A & B & C) X. exists J. eauto using sub_vt.
Qed.
Lemma lift_ok W H H' L t c r : hext H H' -> cok W H' L c ->
  match r with ROk v => vt H' v t | RErr _ => True | RPanic => False end -> eok W H L t (lift (k_w c) r c).
Proof. intros A B. destruct r; cbn; auto. intros V. exists H'. auto. Qed.

(** ** Operators *)
Lemma vt_number H v t : vt H v t -> number t -> (exists z, v = VInt z /\ t = tint) \/ (exists f, v = VF64 f /\ t = treal).
Proof. intros V [->| ->]; inversion V; subst; eauto. Qed.
Definition vres_ok H t (r : vres value) : Prop :=
  match r with ROk v => vt H v t | RErr _ => True | RPanic => False end.
Lemma in_range_ok H z : vres_ok H tint (in_range z).
Proof. unfold in_range. destruct (_ && _); cbn; [constructor|exact I]. Qed.
Lemma bin_ok H op a b u x y : bin_type op a b u -> vt H x a -> vt H y b -> vres_ok H u (sem_binop op x y).
Proof.
  intros B X Y. destruct B as [op Q|op a b Q Na Nb Q2|a b Na Nb|op Q|op a b Q Na Nb|op t Q (p & -> & Q2)].
  - inversion X; inversion Y; subst. unfold sem_binop. cbn [classify].
    destruct Q as [->|[->|[->|[->| ->]]]]; try apply in_range_ok.
    + destruct (_ =? _)%Z; [exact I|]. destruct (_ && _); [exact I|constructor].
    + destruct (_ =? _)%Z; [exact I|apply in_range_ok].
  - apply (vt_number _ _ _ X) in Na. apply (vt_number _ _ _ Y) in Nb.
    destruct Na as [(z1 & -> & ->)|(f1 & -> & ->)], Nb as [(z2 & -> & ->)|(f2 & -> & ->)];
      try (destruct Q2; discriminate);
      destruct Q as [->|[->|[->| ->]]]; unfold sem_binop; cbn [classify]; try destruct (f_eqb _ _); cbn; constructor.
  - apply (vt_number _ _ _ X) in Na. apply (vt_number _ _ _ Y) in Nb.
    destruct Na as [(z1 & -> & ->)|(f1 & -> & ->)], Nb as [(z2 & -> & ->)|(f2 & -> & ->)];
      unfold sem_binop; cbn [classify]; try destruct (f_eqb _ _); try destruct (_ =? _)%Z; cbn; constructor.
  - inversion X; inversion Y; subst. destruct Q as [->| ->]; constructor.
  - apply (vt_number _ _ _ X) in Na. apply (vt_number _ _ _ Y) in Nb.
    destruct Na as [(z1 & -> & ->)|(f1 & -> & ->)], Nb as [(z2 & -> & ->)|(f2 & -> & ->)];
      destruct Q as [->|[->|[->|[->|[->| ->]]]]]; constructor.
  - destruct Q as [->| ->], Q2 as [->|[->|[->| ->]]]; inversion X; inversion Y; subst; constructor.
Qed.
Lemma un_ok H op a u x : un_type op a u -> vt H x a -> vres_ok H u (sem_unop op x).
Proof.
  intros B X. destruct op; cbn in B; [destruct B as [N ->]|contradiction|destruct B as [-> ->]].
  - apply (vt_number _ _ _ X) in N. destruct N as [(z & -> & ->)|(f & -> & ->)]; cbn; [|constructor].
    destruct (_ =? _)%Z; constructor.
  - inversion X; subst. constructor.
Qed.
(** Typed values can be printed. *)
Lemma shows H h v t : heap_ok R H h -> vt H v t -> showable t -> exists s, prints E h v s.
Proof.
  intros Hp V Q. revert v V. induction Q as [p N1 N2|t Q IH|n|t Q IH]; intros v V.
  - inversion V; subst; try congruence.
    + eexists. apply pr_int, numeral_dec.
    + eexists. apply pr_real.
    + destruct b; eexists; constructor.
    + eexists. apply pr_text.
    + eexists. apply pr_none.
    + match goal with Q : _ = VNone \/ _ |- _ => destruct Q as [->| ->] end; eexists; constructor.
  - inversion V; subst. match goal with Q : nth_error H _ = _ |- _ => destruct (heap_get _ _ _ _ Hp Q) as (c & A & B) end. destruct c as [vs|]; [|contradiction]. cbn in B.
    assert (X : exists ts, Forall2 (prints E h) vs ts).
    { clear - IH B. induction B as [|v vs V B IHv]; [exists []; constructor|]. destruct (IH v V) as (s & P), IHv as (ts & F).
      exists (s :: ts). constructor; assumption. }
    destruct X as (ts & F). eexists. eapply pr_vec; eassumption.
  - inversion V; subst. match goal with Q : nth_error H _ = _ |- _ => destruct (heap_get _ _ _ _ Hp Q) as (c & A & B) end. destruct c as [|r st]; [contradiction|].
    eexists. eapply pr_obj; eassumption.
  - inversion V; subst; [eexists; apply pr_none|]. apply IH. assumption.
Qed.
Lemma show_ok H h v t : heap_ok R H h -> vt H v t -> showable t -> exists s, show E h v = Some s.
Proof. intros A B C. destruct (shows _ _ _ _ A B C) as (s & P). exists s. apply show_iff, P. Qed.
Lemma cast_ok H h p q v ty : heap_ok R H h -> vt H v (TyPrim p) -> basic p -> basic q -> castable p q ->
  type_named (prim_name q) = Some ty -> vres_ok H (TyPrim q) (vcast E h v ty).
Proof.
  intros Hp V Bp Bq [N K] T. destruct Bq as [->|[->|[->| ->]]]; vm_compute in T; injection T as <-;
  (destruct Bp as [->|[->|[->| ->]]]; try congruence; inversion V; subst; try discriminate; cbn;
   try (destruct K as [K|[K|K]]; congruence); try constructor; try exact I).
  - destruct (parse_i64 t); [constructor|exact I].
  - destruct (parse_f64 t); [constructor|exact I].
Qed.
Lemma index_ok H h a i u t : heap_ok R H h -> vt H a u -> (u = TyVec t \/ (u = ttexto /\ t = ttexto)) -> vt H i tint ->
  vres_ok H t (index_get E h a i).
Proof.
  intros Hp A Q I'. inversion I'; subst. unfold index_get. cbn [take_int rbind]. destruct Q as [->|[-> ->]]; inversion A; subst.
  - match goal with Q : nth_error H _ = _ |- _ => destruct (heap_get _ _ _ _ Hp Q) as (c & X & Y) end. rewrite X. destruct c as [vs|]; [|contradiction]. cbn in Y.
    unfold vec_index_check. destruct (z <? 0)%Z eqn:Q0; [exact I|]. destruct (_ <=? z)%Z eqn:Q; [exact I|]. cbn.
    destruct (nth_error vs (Z.to_nat z)) as [v|] eqn:N.
    + cbn. apply nth_error_In in N. rewrite Forall_forall in Y. apply Y, N.
    + apply nth_error_None in N. apply Z.leb_gt in Q. apply Z.ltb_ge in Q0. lia.
  - destruct (z <? 0)%Z; [exact I|]. match goal with |- context [match ?X with Some _ => _ | None => _ end] => destruct X end; cbn; [constructor|exact I].
Qed.

(** ** Native functions *)
Definition nat_ok H u (r : vres (value * world)) : Prop :=
  match r with
  | ROk (v, w) => exists H', hext H H' /\ heap_ok R H' (w_heap w) /\ vt H' v u
  | RErr _ => True
  | RPanic => False
  end.
Lemma nat_here H u v w : heap_ok R H (w_heap w) -> vt H v u -> nat_ok H u (ROk (v, w)).
Proof. intros A B. exists H. auto using hext_refl. Qed.
Lemma leia_ok H a u w : heap_ok R H (w_heap w) -> vt H a u -> showable u ->
  exists l w', n_leia_line E [a] w = ROk (l, w') /\ w_heap w' = w_heap w.
Proof.
  intros Hp A Q. destruct (show_ok _ _ _ _ Hp A Q) as (s & X). unfold n_leia_line, n_escreva. rewrite X. cbn [of_opt rbind snd].
  destruct (split_line _) as [a' b']. rewrite release. eauto.
Qed.
Lemma removed_ok {A} (P : A -> Prop) l i : Forall P l -> Forall P (remove_nth l i).
Proof.
  intros F. unfold remove_nth. apply Forall_app. split; rewrite Forall_forall in *; intros x I'; apply F.
  - rewrite <- (firstn_skipn i l). apply in_or_app. auto.
  - rewrite <- (firstn_skipn (Datatypes.S i) l). apply in_or_app. auto.
Qed.
Lemma native_ok H n ts u vs w : native_type n ts u -> Forall2 (vt H) vs ts -> heap_ok R H (w_heap w) ->
  nat_ok H u (native E n vs w).
Proof.
  intros T F Hp.
  destruct T as [n u Q Sh|u Sh|u Sh|u Sh| |t| |t|t];
    repeat match goal with X : Forall2 _ _ (_ :: _) |- _ => inversion X; subst; clear X | X : Forall2 _ _ [] |- _ => inversion X; subst; clear X end.
  - match goal with V : vt _ ?a _ |- _ => destruct (show_ok _ _ _ _ Hp V Sh) as (s & X) end.
    destruct Q as [->| ->].
    + change (nat_ok H tvazio (n_escreva E [x] w)). unfold n_escreva. rewrite X. cbn [of_opt rbind]. apply nat_here; [exact Hp|constructor; auto].
    + change (nat_ok H tvazio (let* s := of_opt (show E (w_heap w) x) in ROk (VNone, emit w (s ++ [10%N])))).
      rewrite X. cbn [of_opt rbind]. apply nat_here; [exact Hp|constructor; auto].
  - match goal with V : vt _ ?a _ |- _ => destruct (leia_ok _ _ _ _ Hp V Sh) as (l & w' & X & Y) end.
    change (nat_ok H ttexto (let* lw := n_leia_line E [x] w in let (l, w1) := lw in ROk (VStr l, w1))).
    rewrite X. cbn [rbind]. apply nat_here; [rewrite Y; exact Hp|constructor].
  - match goal with V : vt _ ?a _ |- _ => destruct (leia_ok _ _ _ _ Hp V Sh) as (l & w' & X & Y) end.
    change (nat_ok H tint (let* lw := n_leia_line E [x] w in let (l, w1) := lw in
      match parse_i64 l with Some z => ROk (VInt z, w1) | None => RErr EReadInt end)).
    rewrite X. cbn [rbind]. destruct (parse_i64 l); [|exact I]. apply nat_here; [rewrite Y; exact Hp|constructor].
  - match goal with V : vt _ ?a _ |- _ => destruct (leia_ok _ _ _ _ Hp V Sh) as (l & w' & X & Y) end.
    change (nat_ok H treal (let* lw := n_leia_line E [x] w in let (l, w1) := lw in
      match parse_f64 l with Some z => ROk (VF64 z, w1) | None => RErr EReadReal end)).
    rewrite X. cbn [rbind]. destruct (parse_f64 l); [|exact I]. apply nat_here; [rewrite Y; exact Hp|constructor].
  - match goal with V : vt _ ?a _ |- _ => inversion V; subst end. apply nat_here; [exact Hp|constructor].
  - match goal with V : vt _ ?a _ |- _ => inversion V; subst end.
    match goal with Q : nth_error H ?l = _ |- _ => destruct (heap_get _ _ _ _ Hp Q) as (c & X & Y);
      change (nat_ok H tint (match nth_error (w_heap w) l with
        | Some (CVec vs) => ROk (VInt (Z.of_nat (List.length vs)), w) | _ => RPanic end)) end.
    rewrite X. destruct c; [|contradiction]. apply nat_here; [exact Hp|constructor].
  - repeat match goal with V : vt _ _ ttexto |- _ => inversion V; subst; clear V end. apply nat_here; [exact Hp|constructor].
  - match goal with V : vt _ ?a (TyVec _), U : vt _ ?b _ |- _ => inversion V; subst; clear V; rename U into Vb; rename b into vb end.
    match goal with Q : nth_error H ?l = _ |- _ => rename Q into Ql; destruct (heap_get _ _ _ _ Hp Ql) as (c & X & Y);
      change (nat_ok H tvazio (match nth_error (w_heap w) l with
        | Some (CVec vs) => ROk (VNone, set_heap w (list_set (w_heap w) l (CVec (vs ++ [vb])))) | _ => RPanic end)) end.
    rewrite X. destruct c; [|contradiction]. apply nat_here; [|constructor; auto]. cbn.
    eapply heap_set; [exact Hp|exact Ql|]. cbn in Y |- *. apply Forall_app. auto.
  - match goal with V : vt _ ?a (TyVec _), U : vt _ ?b tint |- _ => inversion V; subst; clear V; inversion U; subst; clear U end.
    match goal with Q : nth_error H ?l = _ |- _ => rename Q into Ql; destruct (heap_get _ _ _ _ Hp Ql) as (c & X & Y);
      change (nat_ok H t (match nth_error (w_heap w) l with
        | Some (CVec vs) =>
            let* i := vec_index_check vs z in
            let* x := of_opt (nth_error vs i) in
            ROk (x, set_heap w (list_set (w_heap w) l (CVec (remove_nth vs i))))
        | _ => RPanic end)) end.
    rewrite X. destruct c as [vs|]; [|contradiction]. cbn in Y.
    unfold vec_index_check. destruct (z <? 0)%Z eqn:Q0; [exact I|]. destruct (_ <=? z)%Z eqn:Q; [exact I|]. cbn [rbind].
    destruct (nth_error vs (Z.to_nat z)) as [v|] eqn:N; cbn [of_opt rbind].
    + apply nat_here.
      * cbn. eapply heap_set; [exact Hp|exact Ql|]. cbn. apply removed_ok, Y.
      * apply nth_error_In in N. rewrite Forall_forall in Y. apply Y, N.
    + apply nth_error_None in N. apply Z.leb_gt in Q. apply Z.ltb_ge in Q0. lia.
Qed.

(** [vec]. *)
Lemma zero_ok H p t : basic p -> vty_of p = Some t -> exists z, zero_of t = ROk z /\ vt H z (TyPrim p).
Proof. intros [->|[->|[->| ->]]] Q; injection Q as <-; eexists; (split; [reflexivity|constructor]). Qed.
Lemma copies_ok n : forall H w t inner, heap_ok R H (w_heap w) -> Forall (fun v => vt H v t) inner ->
  exists H', hext H H' /\ heap_ok R H' (w_heap (snd (alloc_copies n (CVec inner) w))) /\
    Forall (fun v => vt H' v (TyVec t)) (fst (alloc_copies n (CVec inner) w)).
Proof.
  induction n as [|n IH]; intros H w t inner Hp F; cbn [alloc_copies].
  - exists H. split; [apply hext_refl|]. split; [exact Hp|constructor].
  - destruct (halloc w (CVec inner)) as [w1 l] eqn:Q.
    assert (X : hext H (H ++ [HVec t])) by (exists [HVec t]; reflexivity).
    destruct (heap_alloc _ _ (HVec t) _ _ _ Q Hp) as [H1 N1].
    { cbn. revert F. apply Forall_impl. intros v. apply vt_ext, X. }
    destruct (IH (H ++ [HVec t])%list w1 t inner H1) as (H' & X' & Hp' & F').
    { revert F. apply Forall_impl. intros v. apply vt_ext, X. }
    destruct (alloc_copies n (CVec inner) w1) as [vs w2]. cbn in *.
    exists H'. split; [eapply hext_trans; eassumption|]. split; [exact Hp'|]. constructor; [|exact F'].
    apply vt_vec. eapply hext_nth; eassumption.
Qed.
Lemma dims_some H dims : Forall (fun v => vt H v tint) dims -> exists b, dims_ok dims = ROk b.
Proof.
  induction 1 as [|v dims V F (b & IH)]; cbn; [eauto|]. inversion V; subst. cbn. destruct (_ <? _)%Z; eauto.
Qed.
Lemma build_ok p ty : basic p -> vty_of p = Some ty -> forall dims H w, dims <> [] -> Forall (fun v => vt H v tint) dims ->
  heap_ok R H (w_heap w) ->
  exists vs w' H', build_vec dims ty w = ROk (vs, w') /\ hext H H' /\ heap_ok R H' (w_heap w') /\
    Forall (fun v => vt H' v (vec_of (pred (List.length dims)) (TyPrim p))) vs.
Proof.
  intros Bp Q. induction dims as [|d dims IH]; intros H w N F Hp; [contradiction|]. inversion F as [|? ? Vd Fd]; subst.
  inversion Vd; subst. destruct dims as [|d2 dims].
  - destruct (zero_ok H p ty Bp Q) as (v & Z & T). exists (repeat v (Z.to_nat z)), w, H. cbn [build_vec take_int rbind].
    rewrite Z. cbn [rbind]. split; [reflexivity|]. split; [apply hext_refl|]. split; [exact Hp|].
    apply Forall_forall. intros x I'. apply repeat_spec in I' as ->. exact T.
  - change (build_vec (VInt z :: d2 :: dims) ty w) with
      (if (z =? 0)%Z then ROk ([], w) else let* iw := build_vec (d2 :: dims) ty w in
         let (inner, w1) := iw in ROk (alloc_copies (Z.to_nat z) (CVec inner) w1)).
    destruct (z =? 0)%Z.
    + exists [], w, H. split; [reflexivity|]. split; [apply hext_refl|]. split; [exact Hp|constructor].
    + destruct (IH H w ltac:(discriminate) Fd Hp) as (inner & w1 & H1 & B & X & Hp1 & F1). rewrite B. cbn [rbind].
      destruct (copies_ok (Z.to_nat z) H1 w1 _ inner Hp1 F1) as (H2 & X2 & Hp2 & F2).
      destruct (alloc_copies _ _ _) as [vs w2]. exists vs, w2, H2. split; [reflexivity|].
      split; [eapply hext_trans; eassumption|]. split; [exact Hp2|exact F2].
Qed.
Lemma vec_ok H p ty dims w : basic p -> vty_of p = Some ty -> dims <> [] -> Forall (fun v => vt H v tint) dims ->
  heap_ok R H (w_heap w) -> nat_ok H (vec_of (List.length dims) (TyPrim p)) (native E (txt "vec") (VType ty :: dims) w).
Proof.
  intros Bp Q N F Hp. change (native E (txt "vec") (VType ty :: dims) w) with (n_vec (VType ty :: dims) w).
  unfold n_vec. cbn [take_type rbind]. destruct (dims_some _ _ F) as (b & ->). cbn [rbind]. destruct b; [|exact I].
  destruct (build_ok p ty Bp Q dims H w N F Hp) as (vs & w1 & H1 & -> & X & Hp1 & F1). cbn [rbind].
  destruct (halloc w1 (CVec vs)) as [w2 l] eqn:A.
  set (el := vec_of (pred (List.length dims)) (TyPrim p)) in *.
  assert (X1 : hext H1 (H1 ++ [HVec el])) by (exists [HVec el]; reflexivity).
  destruct (heap_alloc _ _ (HVec el) _ _ _ A Hp1) as [Hp2 N2].
  { cbn. revert F1. apply Forall_impl. intros v. apply vt_ext, X1. }
  exists (H1 ++ [HVec el])%list. split; [eapply hext_trans; eassumption|]. split; [exact Hp2|].
  destruct dims; [contradiction|]. cbn [vec_of List.length]. apply vt_vec. exact N2.
Qed.

(** ** Expressions *)
Lemma lev_params H names : forall vs ts, Forall2 (vt H) vs ts -> List.length names = List.length ts ->
  lev_ok H (List.combine names ts) (List.combine names vs).
Proof.
  induction names as [|n names IH]; intros vs ts F L; [intros k; exact I|].
  destruct F as [|v t vs ts V F]; [discriminate|]. intros k. cbn. destruct (text_eqb k n); [exact V|].
  apply IH; [exact F|injection L; auto].
Qed.
Definition body_ok W H t (r : res) : Prop :=
  match r with
  | Done o c => exists H' L, hext H H' /\ cok W H' L c /\
      ((o = ONorm /\ t = tvazio) \/ exists v, o = ORet v /\ vt H' v t)
  | Fail _ _ | Fuel => True
  | Stuck => False
  end.
Definition rec_body W (rec : recfun) : Prop :=
  forall d g names ts t ch H c, gle g W -> fun_ty S m R g names ts t ch ->
    cok W H [List.combine names ts] c -> body_ok W H t (rec (Body ch) m d c).

Section Ev.
Variable W : genv.
Hypothesis Wk : wok W.
Variable rec : recfun.
Hypothesis Hbody : rec_body W rec.
Variable d : nat.
Notation ev := (ev E S rec m d).
Notation ety := (ety S m R).

Lemma user_ok H L c f ts t vs : assoc f (ge_fun W) = Some (ts, t) -> cok W H L c -> Forall2 (vt H) vs ts ->
  exists fd, se_fun S m f = Some fd /\ se_imp S m f = None /\ eok W H L t (call_user rec d m fd vs c).
Proof.
  intros A C F. destruct (wk_fun _ Wk _ _ _ A) as (I1 & names & ch & g & Sf & Gl & Ty). exists (mkFD names ch).
  split; [exact Sf|]. split; [exact I1|]. unfold call_user. cbn [fd_params fd_body].
  pose proof Ty as (Len & _). rewrite (f2_len _ _ _ F), <- Len, Nat.eqb_refl. cbn [negb].
  destruct (max_depth <=? d)%nat; [exact I|].
  assert (C1 : cok W H [List.combine names ts] (mkCfg (k_w c) (k_g c) [List.combine names vs])).
  { apply (cok_levels _ _ _ _ _ _ C). constructor; [|constructor]. apply lev_params; assumption. }
  pose proof (Hbody (Datatypes.S d) g names ts t ch H _ Gl Ty C1) as B.
  destruct (rec (Body ch) m (Datatypes.S d) _) as [o c'| | |]; cbn in B |- *; auto.
  destruct B as (H' & L' & X & C' & [[-> ->]|(v & -> & V)]); cbn.
  - exists H'. split; [exact X|]. split; [eapply cok_ext_levels; [exact C'|exact X|apply C]|constructor; auto].
  - exists H'. split; [exact X|]. split; [eapply cok_ext_levels; [exact C'|exact X|apply C]|exact V].
Qed.

Definition Pe (x : node) : Prop := forall G t H c, gle (te_g G) W -> ety G x t -> cok W H (te_loc G) c ->
  eok W H (te_loc G) t (ev x c).
Definition Pn (x : node) : Prop := Pe x /\ match x with NNamed _ _ e => Pe e | _ => True end.

Lemma args_ok G l : Forall Pe l -> gle (te_g G) W -> forall ts H c k P, args_ty (ety G) l ts -> cok W H (te_loc G) c -> passes P ->
  (forall vs c' H', hext H H' -> cok W H' (te_loc G) c' -> Forall2 (vt H') vs ts -> P (k vs c')) -> P (run_args ev l c k).
Proof.
  intros F Gl. induction F as [|x l X F IH]; intros ts H c k P T C Ps K; destruct ts as [|t ts]; cbn in T; try contradiction.
  - cbn. apply (K [] c H); auto using hext_refl.
  - destruct T as [(u & T1 & Sb) T2]. cbn [run_args]. eapply eok_bind; [exact Ps|eapply sub_eok; [eapply X; eassumption|exact Sb]|].
    intros v c1 H1 X1 C1 V1. eapply IH; [exact T2|exact C1|exact Ps|]. intros vs c2 H2 X2 C2 V2.
    apply (K _ _ H2); [eapply hext_trans; eassumption|exact C2|]. constructor; [eapply vt_ext; eassumption|exact V2].
Qed.
Lemma elems_ok G l u : Forall Pe l -> gle (te_g G) W -> forall H c k P, elems_ty (ety G) u l -> cok W H (te_loc G) c -> passes P ->
  (forall vs c' H', hext H H' -> cok W H' (te_loc G) c' -> Forall (fun v => vt H' v u) vs -> P (k vs c')) -> P (run_args ev l c k).
Proof.
  intros F Gl. induction F as [|x l X F IH]; intros H c k P T C Ps K; cbn in T.
  - cbn. apply (K [] c H); auto using hext_refl.
  - destruct T as [(u' & T1 & Sb) T2]. cbn [run_args]. eapply eok_bind; [exact Ps|eapply sub_eok; [eapply X; eassumption|exact Sb]|].
    intros v c1 H1 X1 C1 V1. eapply IH; [exact T2|exact C1|exact Ps|]. intros vs c2 H2 X2 C2 V2.
    apply (K _ _ H2); [eapply hext_trans; eassumption|exact C2|]. constructor; [eapply vt_ext; eassumption|exact V2].
Qed.
Lemma parts_ok G l : Forall Pe l -> gle (te_g G) W -> forall H c k P, parts_ty (ety G) l -> cok W H (te_loc G) c -> passes P ->
  (forall vs c' H', hext H H' -> cok W H' (te_loc G) c' -> Forall (fun v => exists u, vt H' v u /\ showable u) vs -> P (k vs c')) -> P (run_args ev l c k).
Proof.
  intros F Gl. induction F as [|x l X F IH]; intros H c k P T C Ps K; cbn in T.
  - cbn. apply (K [] c H); auto using hext_refl.
  - destruct T as [(u' & T1 & Sb) T2]. cbn [run_args]. eapply eok_bind; [exact Ps|eapply X; eassumption|].
    intros v c1 H1 X1 C1 V1. eapply IH; [exact T2|exact C1|exact Ps|]. intros vs c2 H2 X2 C2 V2.
    apply (K _ _ H2); [eapply hext_trans; eassumption|exact C2|]. constructor; [|exact V2].
    exists u'. split; [eapply vt_ext; eassumption|exact Sb].
Qed.
Lemma fields_ok G decl l : Forall Pn l -> gle (te_g G) W -> forall H c k P, fields_ty (ety G) decl l -> cok W H (te_loc G) c -> passes P ->
  (forall fs c' H', hext H H' -> cok W H' (te_loc G) c' ->
     Forall (fun p => exists t, assoc (fst p) decl = Some t /\ vt H' (snd p) t) fs ->
     (forall ln f e, In (NNamed ln f e) l -> In f (map fst fs)) -> P (k fs c')) -> P (run_fields ev l c k).
Proof.
  intros F Gl. induction F as [|x l X F IH]; intros H c k P T C Ps K; cbn in T.
  - cbn. apply (K [] c H); auto using hext_refl.
  - destruct x; try contradiction. destruct T as [(t & u & A & T1 & Sb) T2]. cbn [run_fields]. destruct X as [_ X].
    eapply eok_bind; [exact Ps|eapply sub_eok; [eapply X; eassumption|exact Sb]|].
    intros v c1 H1 X1 C1 V1. eapply IH; [exact T2|exact C1|exact Ps|]. intros vs c2 H2 X2 C2 V2 N2.
    apply (K _ _ H2); [eapply hext_trans; eassumption|exact C2| |].
    + constructor; [|exact V2]. exists t. split; [exact A|eapply vt_ext; eassumption].
    + intros ln' f e [Q|Q]; [injection Q as <- <- <-; left; reflexivity|right; eapply N2, Q].
Qed.
Lemma fields_of_ok H decl fs st : Forall (fun p => exists t, assoc (fst p) decl = Some t /\ vt H (snd p) t) fs ->
  forall f t, assoc f decl = Some t ->
  (In f (map fst fs) \/ exists v, assoc f st = Some v /\ vt H v t) ->
  exists v, assoc f (fold_left (fun st p => assoc_set st (fst p) (snd p)) fs st) = Some v /\ vt H v t.
Proof.
  intros F. revert st. induction F as [|[f0 v0] fs (t0 & A0 & V0) F IH]; intros st f t A Q; cbn in *.
  - destruct Q as [[]|Q]. exact Q.
  - apply IH; [exact A|]. destruct (text_dec f f0) as [->|N].
    + right. exists v0. rewrite assoc_set_same. split; [reflexivity|congruence].
    + rewrite assoc_set_other by exact N. destruct Q as [[Q|Q]|Q]; [congruence|auto|auto].
Qed.
Lemma lit_ok H k lex v : lit_value k lex = Some v -> vt H v (lit_type k).
Proof.
  destruct k; cbn.
  - destruct (_ && _); [|discriminate]. intros Q; injection Q as <-. constructor.
  - destruct (split_dot lex) as [a [b|]]; [|discriminate]. destruct (_ && _); [|discriminate].
    destruct (parse_f64 lex); [|discriminate]. intros Q; injection Q as <-. constructor.
  - destruct lex as [|q r]; [discriminate|]. destruct (rev r); [discriminate|]. destruct (_ && _); [|discriminate].
    intros Q; injection Q as <-. constructor.
  - intros Q; injection Q as <-. constructor.
  - destruct (text_eqb _ _); [intros Q; injection Q as <-; constructor|].
    destruct (text_eqb _ _); [intros Q; injection Q as <-; constructor|discriminate].
  - destruct (text_eqb _ _); [intros Q; injection Q as <-; constructor|discriminate].
Qed.
Lemma lib_value G H c n v : library S m G n -> cok W H (te_loc G) c -> assoc n (embutidos_exports E) = Some v ->
  look (k_l c) n = None /\ global_value S c m n = Some v.
Proof.
  intros (A & B & _) C X. pose proof (look_ok _ _ _ n (ck_loc _ _ _ _ C)) as K. rewrite A in K.
  destruct (look (k_l c) n); [contradiction|]. split; [reflexivity|]. unfold global_value. rewrite B. apply C, X.
Qed.
Lemma native_call G H c n ts t vs : library S m G n -> native_type n ts t -> cok W H (te_loc G) c -> Forall2 (vt H) vs ts ->
  eok W H (te_loc G) t (match call_target S c m n with Some k => call_any E rec d k vs c | None => Stuck end).
Proof.
  intros Lb T C F. unfold call_target. assert (X : assoc n (embutidos_exports E) = Some (VNative n)).
  { destruct T as [n u [->| ->] Sh|u Sh|u Sh|u Sh| |t| |t|t]; reflexivity. }
  pose proof (lib_value G H c n _ Lb C X) as [Lk _]. rewrite Lk. destruct Lb as (A & B & D). rewrite B, D.
  rewrite (ck_lib _ _ _ _ C _ _ X). cbn [call_any].
  pose proof (native_ok H n ts t vs (k_w c) T F (ck_heap _ _ _ _ C)) as N.
  destruct (native E n vs (k_w c)) as [[v w]| |]; cbn in N |- *; auto.
  destruct N as (H' & X' & Hp & V). exists H'. split; [exact X'|]. split; [eapply cok_heap; eassumption|exact V].
Qed.
Lemma vec_call G H c p ty dims : library S m G (txt "vec") -> basic p -> vty_of p = Some ty -> cok W H (te_loc G) c -> dims <> [] ->
  Forall (fun v => vt H v tint) dims ->
  eok W H (te_loc G) (vec_of (List.length dims) (TyPrim p))
    (match call_target S c m (txt "vec") with Some k => call_any E rec d k (VType ty :: dims) c | None => Stuck end).
Proof.
  intros Lb Bp Q C N F. unfold call_target. assert (X : assoc (txt "vec") (embutidos_exports E) = Some (VNative (txt "vec"))) by reflexivity.
  pose proof (lib_value G H c _ _ Lb C X) as [Lk _]. rewrite Lk. destruct Lb as (A & B & D). rewrite B, D.
  rewrite (ck_lib _ _ _ _ C _ _ X). cbn [call_any].
  pose proof (vec_ok H p ty dims (k_w c) Bp Q N F (ck_heap _ _ _ _ C)) as K.
  destruct (native E _ _ (k_w c)) as [[v w]| |]; cbn in K |- *; auto.
  destruct K as (H' & X' & Hp & V). exists H'. split; [exact X'|]. split; [eapply cok_heap; eassumption|exact V].
Qed.
Lemma f2_repeat {A} (P : value -> A -> Prop) t n vs : Forall2 P vs (repeat t n) -> Forall (fun v => P v t) vs /\ List.length vs = n.
Proof.
  revert vs. induction n as [|n IH]; intros vs F; cbn in F; inversion F; subst; [auto|].
  destruct (IH _ H3) as [A' B]. split; [constructor; assumption|cbn; congruence].
Qed.

Lemma pn_pe l : Forall Pn l -> Forall Pe l.
Proof. apply Forall_impl. intros x [A _]. exact A. Qed.
Ltac psplit := split; [|exact I].
Theorem expr_sound x : Pn x.
Proof.
  induction x using node_ind'; split; auto; intros G t0 J0 k0 Gl T C; cbn [Spec_Typing.ety] in T; try contradiction; cbn [Sem.ev];
    repeat match goal with X : Pn _ |- _ => destruct X as [X _] end.
  - (* NConst *) destruct T as [T1 T2]. eapply prom_ok; [|exact T2]. destruct (lit_value k lex) as [v|] eqn:Q; [|congruence].
    apply eok_here; [exact C|]. eapply lit_ok; eassumption.
  - (* NVar *) destruct T as (u & T1 & T2). eapply prom_ok; [|exact T2].
    destruct (read_ok _ _ _ _ _ _ Wk Gl C T1) as (v & -> & V). apply eok_here; assumption.
  - (* NUn *) destruct T as (u & v & T1 & T2 & T3). eapply prom_ok; [|exact T3].
    eapply eok_bind; [apply eok_passes|eapply IHx; eassumption|]. intros a c1 H1 X1 C1 V1.
    eapply lift_ok; [exact X1|exact C1|]. eapply un_ok; eassumption.
  - (* NBin *) destruct T as (ta & tb & u & T1 & T2 & T3 & T4). eapply prom_ok; [|exact T4].
    eapply eok_bind; [apply eok_passes|eapply IHx1; eassumption|]. intros a c1 H1 X1 C1 V1.
    eapply eok_bind; [apply eok_passes|eapply IHx2; eassumption|]. intros b c2 H2 X2 C2 V2.
    destruct ((nl || nr) && is_equality op).
    + subst u. eapply eok_val; [eapply hext_trans; eassumption|exact C2|constructor].
    + eapply lift_ok; [eapply hext_trans; eassumption|exact C2|]. eapply bin_ok; [exact T3|eapply vt_ext; eassumption|exact V2].
  - (* NCall *) rename H into F. destruct k; [contradiction| |].
    + destruct x; try contradiction. destruct pr0; [contradiction|].
      destruct T as (decl & T1 & T2 & T3 & T4 & T5 & T6). eapply prom_ok; [|exact T6].
      eapply fields_ok with (decl := decl); [exact F|exact Gl|exact T4|exact C|apply eok_passes|].
      intros fs c1 H1 X1 C1 V1 N1. pose proof (look_ok _ _ _ name (ck_loc _ _ _ _ C1)) as Lk. rewrite T1 in Lk.
      destruct (look (k_l c1) name); [contradiction|]. unfold global_value.
      assert (I1 : In name (ge_rec W)) by (apply (gl_rec _ _ Gl), T2).
      rewrite (wk_rec _ Wk _ I1). destruct (ck_rec _ _ _ _ C1 _ I1) as (fs0 & ->).
      destruct (halloc (k_w c1) (CObj name (fields_of fs))) as [w l] eqn:A.
      assert (X2 : hext H1 (H1 ++ [HObj name])) by (exists [HObj name]; reflexivity).
      destruct (heap_alloc _ _ (HObj name) _ _ _ A (ck_heap _ _ _ _ C1)) as [Hp N].
      { cbn. exists decl. split; [exact T3|]. intros f t Q. unfold fields_of.
        destruct (fields_of_ok H1 decl fs [] V1 f t Q) as (v & V & U).
        - left. destruct (T5 f t Q) as (ln' & e & I2). eapply N1, I2.
        - exists v. split; [exact V|eapply vt_ext; eassumption]. }
      eapply eok_val; [eapply hext_trans; eassumption|eapply cok_heap; eassumption|]. constructor. exact N.
    + destruct x; try contradiction. destruct pr0; [contradiction|]. destruct T as (u & T1 & T2). eapply prom_ok; [|exact T2]. clear T2.
      destruct T1 as [(ts & A1 & A2 & A3)|[(ts & A1 & A2 & A3)|(ln' & tn & s' & b & dims & -> & A1 & -> & (p & Bp & -> & ->) & A2 & A3 & A4 & ->)]].
      * eapply args_ok; [apply pn_pe, F|exact Gl|exact A3|exact C|apply eok_passes|]. intros vs c1 H1 X1 C1 V1.
        apply (gl_fun _ _ Gl) in A2. destruct (user_ok _ _ _ _ _ _ _ A2 C1 V1) as (fd & Sf & I1 & K).
        unfold call_target. pose proof (look_ok _ _ _ name (ck_loc _ _ _ _ C1)) as Lk. rewrite A1 in Lk.
        destruct (look (k_l c1) name); [contradiction|]. rewrite I1, Sf. cbn [option_map call_any]. eapply eok_mono; eassumption.
      * eapply args_ok; [apply pn_pe, F|exact Gl|exact A3|exact C|apply eok_passes|]. intros vs c1 H1 X1 C1 V1.
        eapply eok_mono; [exact X1|]. eapply native_call; eassumption.
      * inversion F as [|? ? F1 F2]; subst. cbn [run_args Sem.ev promote].
        assert (exists ty, vty_of p = Some ty /\ assoc (prim_name p) (embutidos_exports E) = Some (VType ty)) as (ty & Q1 & Q2).
        { destruct Bp as [->|[->|[->| ->]]]; eexists; split; reflexivity. }
        destruct (lib_value _ _ _ _ _ A2 C Q2) as [K1 K2]. unfold read_var, var_value. rewrite K1, K2. cbn [bindv bind].
        fold (run_args (Sem.ev E S rec m d)).
        eapply args_ok; [apply pn_pe, F2|exact Gl|exact A4|exact C|apply eok_passes|]. intros vs c1 H1 X1 C1 V1.
        eapply eok_mono; [exact X1|]. apply f2_repeat in V1 as [V1 V2]. rewrite <- V2.
        apply vec_call; auto. intros ->. destruct dims; [contradiction|discriminate].
  - (* NNamed *) eapply IHx; eassumption.
  - (* NConv *) destruct c as [[s chk]|].
    + destruct chk; [contradiction|]. destruct T as (p & q & T1 & Bp & Bq & K & Q & ->).
      eapply eok_bind; [apply eok_passes|eapply IHx; eassumption|]. intros v c1 H1 X1 C1 V1. rewrite Q.
      assert (exists ty, type_named (prim_name q) = Some ty) as (ty & Q2) by (destruct Bq as [->|[->|[->| ->]]]; eexists; reflexivity).
      rewrite Q2. eapply lift_ok; [exact X1|exact C1|]. eapply cast_ok; try eassumption. apply C1.
    + eapply eok_bind; [apply eok_passes|eapply IHx; eassumption|]. intros v c1 H1 X1 C1 V1. eapply eok_val; eassumption.
  - (* NIndex *) destruct T as [(u & T1 & T2) T3].
    eapply eok_bind; [apply eok_passes|eapply IHx1; eassumption|]. intros a c1 H1 X1 C1 V1.
    eapply eok_bind; [apply eok_passes|eapply IHx2; eassumption|]. intros b c2 H2 X2 C2 V2.
    eapply lift_ok; [eapply hext_trans; eassumption|exact C2|]. eapply index_ok; [apply C2|eapply vt_ext; eassumption|exact T2|exact V2].
  - (* NFmt *) destruct T as [T ->].
    eapply parts_ok; [apply pn_pe; eassumption|exact Gl|exact T|exact C|apply eok_passes|]. intros vs c1 H1 X1 C1 V1.
    assert (exists ts, opt_map (show E (w_heap (k_w c1))) vs = Some ts) as (ts & Q).
    { clear - V1 C1. induction V1 as [|v vs (u & V & Sh) F IH]; [exists []; reflexivity|]. destruct IH as (ts & IH).
      destruct (show_ok _ _ _ _ (ck_heap _ _ _ _ C1) V Sh) as (s & X). exists (s :: ts). cbn [opt_map]. rewrite X, IH. reflexivity. }
    unfold show_all. rewrite Q. cbn [option_map]. eapply eok_val; [exact X1|exact C1|constructor].
  - (* NList *) destruct T as (u & T & ->).
    eapply elems_ok; [apply pn_pe; eassumption|exact Gl|exact T|exact C|apply eok_passes|]. intros vs c1 H1 X1 C1 V1.
    destruct (halloc (k_w c1) (CVec vs)) as [w l] eqn:A.
    assert (X2 : hext H1 (H1 ++ [HVec u])) by (exists [HVec u]; reflexivity).
    destruct (heap_alloc _ _ (HVec u) _ _ _ A (ck_heap _ _ _ _ C1)) as [Hp N].
    { cbn. revert V1. apply Forall_impl. intros v. apply vt_ext, X2. }
    eapply eok_val; [eapply hext_trans; eassumption|eapply cok_heap; eassumption|]. constructor. exact N.
  - (* NGet *) destruct T as (n & decl & T1 & T2 & T3).
    eapply eok_bind; [apply eok_passes|eapply IHx; eassumption|]. intros v c1 H1 X1 C1 V1. inversion V1; subst.
    match goal with Q : nth_error _ _ = _ |- _ => destruct (heap_get _ _ _ _ (ck_heap _ _ _ _ C1) Q) as (k & A & B) end.
    eapply lift_ok; [exact X1|exact C1|]. unfold prop_get. rewrite A. destruct k as [|r st]; [contradiction|]. cbn in B |- *.
    destruct B as (decl' & B1 & B2). assert (decl' = decl) by congruence. subst. destruct (B2 _ _ T3) as (v & -> & V). exact V.
  - (* NUnwrap *) destruct d0 as [y|]; cbn [optP] in *.
    + destruct T as [T1 (u & T2 & T3)].
      eapply eok_bind; [apply eok_passes|eapply IHx; eassumption|]. intros v c1 H1 X1 C1 V1.
      destruct H as [H _].
      eapply eok_bind; [apply eok_passes|eapply sub_eok; [eapply H; eassumption|exact T3]|]. intros dv c2 H2 X2 C2 V2.
      eapply eok_val; [eapply hext_trans; eassumption|exact C2|]. destruct (is_none v) eqn:Q; [exact V2|].
      inversion V1; subst; [discriminate|]. eapply vt_ext; eassumption.
    + eapply eok_bind; [apply eok_passes|eapply IHx; eassumption|]. intros v c1 H1 X1 C1 V1.
      destruct (is_none v) eqn:Q; [exact I|]. inversion V1; subst; [discriminate|]. eapply eok_val; eassumption.
Qed.
End Ev.

(** ** Statements *)
Definition normal (o : out) : bool := match o with ONorm | OVal _ => true | _ => false end.
Definition jump_ok (G : tenv) H (o : out) : Prop :=
  match o with
  | ONorm | OVal _ => True
  | OBrk | OCont => te_loop G = true
  | ORet v => exists t, te_ret G = Some t /\ vt H v t
  end.
Definition stm_ok W (G : tenv) L' H (rt : bool) (r : res) : Prop :=
  match r with
  | Done o c => (rt = true -> normal o = false) /\
      exists H', hext H H' /\ jump_ok G H' o /\ cok W H' (if normal o then L' else te_loc G) c
  | Fail _ _ | Fuel => True
  | Stuck => False
  end.
(** Like [stm_ok], for something that gives no value. *)
Definition blk_ok W (G : tenv) H (rt : bool) (r : res) : Prop :=
  match r with
  | Done o c => (rt = true -> normal o = false) /\ (forall v, o <> OVal v) /\
      exists H', hext H H' /\ jump_ok G H' o /\ cok W H' (te_loc G) c
  | Fail _ _ | Fuel => True
  | Stuck => False
  end.
Definition rec_again W (rec : recfun) : Prop :=
  forall d ln cnd b G H c, gle (te_g G) W -> sty S m R G (NEnquanto ln cnd b) G -> cok W H (te_loc G) c ->
    blk_ok W G H false (rec (Again (NEnquanto ln cnd b)) m d c).
Definition rec_test W (rec : recfun) : Prop :=
  forall d ln n a z inc b G H c, gle (te_g G) W -> sty S m R G (NPara ln n a z inc b) G ->
    cok W H ([(n, tint)] :: te_loc G) c -> blk_ok W G H false (rec (Test (NPara ln n a z inc b)) m d c).

Lemma stm_passes W G L' H rt : passes (stm_ok W G L' H rt). Proof. split; cbn; auto. Qed.
Lemma blk_passes W G H rt : passes (blk_ok W G H rt). Proof. split; cbn; auto. Qed.
Lemma blk_mono W G H H' rt r : hext H H' -> blk_ok W G H' rt r -> blk_ok W G H rt r.
Proof.
  intros X. destruct r as [o c| | |]; cbn; auto. intros (A & B & J & Y & K). split; [exact A|]. split; [exact B|].
  exists J. split; [eapply hext_trans; eassumption|exact K].
Qed.
Lemma blk_stm W G H rt r : blk_ok W G H rt r -> stm_ok W G (te_loc G) H rt r.
Proof.
  destruct r as [o c| | |]; cbn; auto. intros (A & B & J & X & K1 & K2). split; [exact A|]. exists J. split; [exact X|].
  split; [exact K1|]. destruct (normal o); exact K2.
Qed.
Lemma norm_ok W G H H' L' c : hext H H' -> cok W H' L' c -> stm_ok W G L' H false (Done ONorm c).
Proof. intros A B. cbn. split; [discriminate|]. exists H'. auto. Qed.
Lemma bnorm_ok W G H H' c : hext H H' -> cok W H' (te_loc G) c -> blk_ok W G H false (Done ONorm c).
Proof. intros A B. cbn. split; [discriminate|]. split; [discriminate|]. exists H'. auto. Qed.
Lemma rt_weak W G H rt r : blk_ok W G H rt r -> blk_ok W G H false r.
Proof. destruct r; cbn; auto. intros (A & B). split; [discriminate|exact B]. Qed.

Section Stm.
Variable W : genv.
Hypothesis Wk : wok W.
Variable rec : recfun.
Hypothesis Hbody : rec_body W rec.
Hypothesis Hagain : rec_again W rec.
Hypothesis Htest : rec_test W rec.
Variable d : nat.
Notation ev := (ev E S rec m d).
Notation ety := (ety S m R).
Notation sty := (sty S m R).

Lemma ev_sound x G t H c : gle (te_g G) W -> ety G x t -> cok W H (te_loc G) c -> eok W H (te_loc G) t (ev x c).
Proof. exact (proj1 (expr_sound W Wk rec Hbody d x) G t H c). Qed.
Lemma ev_sub x G t u H c : gle (te_g G) W -> ety G x t -> sub t u -> cok W H (te_loc G) c -> eok W H (te_loc G) u (ev x c).
Proof. intros. eapply sub_eok; [|eassumption]. apply ev_sound; assumption. Qed.
(** An expression as a statement. *)
Lemma expr_stm G H t r : eok W H (te_loc G) t r -> stm_ok W G (te_loc G) H false r.
Proof.
  destruct r as [[]| | |]; cbn; try tauto. intros (H' & A & B & C). split; [discriminate|]. exists H'. auto.
Qed.
Definition Ps (x : node) : Prop := forall G G' H c, gle (te_g G) W -> sty G x G' -> cok W H (te_loc G) c ->
  stm_ok W G (te_loc G') H (returns x) (ev x c).
Definition Bs (b : node) : Prop := match b with NBlock _ ch => Forall Ps ch | _ => True end.
Definition Qs (x : node) : Prop := Ps x /\ Bs x /\ match x with NSenaoSe _ _ b => Bs b | _ => True end.

Lemma sty_env G x G' : sty G x G' -> te_g G' = te_g G /\ te_ret G' = te_ret G /\ te_loop G' = te_loop G /\
  (forall sc r, te_loc G = sc :: r -> exists sc', te_loc G' = sc' :: r).
Proof.
  destruct x; intros T; try (destruct T as [-> _]; eauto 10; fail).
  destruct T as (t & sc & r & A & -> & _). cbn. repeat split; auto. intros sc1 r1 Q. rewrite A in Q. injection Q as <- <-. eauto.
Qed.
Lemma seq_ok l : Forall Ps l -> forall G sc r H c, gle (te_g G) W -> seq_of sty G l -> te_loc G = sc :: r -> cok W H (te_loc G) c ->
  match run_seq ev l c with
  | Done o c' => (existsb returns l = true -> normal o = false) /\ (forall v, o <> OVal v) /\
      exists H' sc', hext H H' /\ jump_ok G H' o /\ cok W H' (sc' :: r) c'
  | Fail _ _ | Fuel => True
  | Stuck => False
  end.
Proof.
  induction 1 as [|x l X F IH]; intros G sc r H c Gl T L C; cbn [run_seq].
  - split; [discriminate|]. split; [discriminate|]. exists H, sc. rewrite L in C. cbn. auto using hext_refl.
  - destruct T as (G1 & T1 & T2). pose proof (X G G1 H c Gl T1 C) as Y. destruct (ev x c) as [o c1| | |]; cbn in Y |- *; auto.
    destruct Y as (Y0 & H1 & X1 & J1 & C1). destruct (sty_env _ _ _ T1) as (E1 & E2 & E3 & E4). destruct (E4 _ _ L) as (sc1 & L1).
    assert (N : normal o = true -> match run_seq ev l c1 with
      | Done o' c' => (returns x || existsb returns l = true -> normal o' = false) /\ (forall v, o' <> OVal v) /\
          exists H' sc', hext H H' /\ jump_ok G H' o' /\ cok W H' (sc' :: r) c'
      | Fail _ _ | Fuel => True
      | Stuck => False end).
    { intros N. rewrite N in C1. rewrite <- E1 in Gl. specialize (IH G1 sc1 r H1 c1 Gl T2 L1 C1).
      destruct (run_seq ev l c1) as [o' c'| | |]; auto. destruct IH as (R1 & R2 & H2 & sc2 & X2 & J2 & C2).
      split. { intros Q. apply Bool.orb_prop in Q as [Q|Q]; [rewrite (Y0 Q) in N; discriminate|auto]. }
      split; [exact R2|]. exists H2, sc2. split; [eapply hext_trans; eassumption|]. split; [|exact C2].
      unfold jump_ok in *. rewrite E2, E3 in J2. exact J2. }
    destruct o; try (apply N; reflexivity); cbn in C1; rewrite L in C1;
      (split; [reflexivity|]; split; [discriminate|]; exists H1, sc; auto).
Qed.
Lemma push_ok G H c : cok W H (te_loc G) c -> cok W H ([] :: te_loc G) (push_scope c []).
Proof. intros C. apply (cok_levels _ _ _ _ _ _ C). constructor; [intros n; exact I|apply C]. Qed.
Lemma pop_ok H sc L c : cok W H (sc :: L) c -> cok W H L (pop_scope c).
Proof. intros C. apply (cok_levels _ _ _ _ _ _ C). pose proof (ck_loc _ _ _ _ C) as F. inversion F; subst. assumption. Qed.
Lemma block_ok b G H c : Bs b -> gle (te_g G) W -> blk_of sty G b -> cok W H (te_loc G) c ->
  blk_ok W G H (returns b) (run_block ev b c).
Proof.
  intros Hb Gl T C. destruct b; try contradiction. cbn [run_block returns]. cbn in Hb, T.
  pose proof (seq_ok ch Hb (push G []) [] (te_loc G) H (push_scope c []) Gl T eq_refl (push_ok _ _ _ C)) as X.
  unfold popr. destruct (run_seq ev ch _) as [o c1| | |]; cbn in X |- *; auto.
  destruct X as (A & B & H1 & sc1 & X1 & J1 & C1). split; [exact A|]. split; [exact B|]. exists H1. split; [exact X1|].
  split; [exact J1|]. eapply pop_ok; eassumption.
Qed.
Lemma elifs_ok k G rt els : Forall Qs els -> gle (te_g G) W -> forall H c, elifs_of S m R sty G els -> cok W H (te_loc G) c ->
  (forall H' c', hext H H' -> cok W H' (te_loc G) c' -> blk_ok W G H' rt (k c')) ->
  blk_ok W G H (forallb returns els && rt) (run_elifs ev k els c).
Proof.
  intros F Gl. induction F as [|x els X F IH]; intros H c T C K; cbn [run_elifs].
  - cbn. apply (K H); [apply hext_refl|exact C].
  - destruct x; try contradiction. cbn in T. destruct T as (T1 & T2 & T3). destruct X as (_ & _ & X).
    eapply eok_bind; [apply blk_passes|apply ev_sound; eassumption|]. intros v c1 H1 X1 C1 V1. inversion V1; subst.
    match goal with |- context [if ?q then _ else _] => destruct q end.
    + eapply blk_mono; [exact X1|]. pose proof (block_ok x2 G H1 c1 X Gl T2 C1) as Y. cbn [forallb returns].
      destruct (run_block ev x2 c1); cbn in Y |- *; auto. destruct Y as [Y1 Y2]. split; [|exact Y2].
      intros Q. apply Y1. apply andb_prop in Q as [Q _]. apply andb_prop in Q as [Q _]. exact Q.
    + eapply blk_mono; [exact X1|].
      assert (Y : blk_ok W G H1 (forallb returns els && rt) (run_elifs ev k els c1)).
      { apply IH; [exact T3|exact C1|]. intros H2 c2 X2 C2. apply K; [eapply hext_trans; eassumption|exact C2]. }
      destruct (run_elifs ev k els c1); cbn in Y |- *; auto. destruct Y as [Y1 Y2]. split; [|exact Y2].
      intros Q. apply Y1. apply andb_prop in Q as [Q1 Q2]. apply andb_prop in Q1 as [_ Q1]. rewrite Q1, Q2. reflexivity.
Qed.

Lemma declare_ok G H c n t v sc r : te_loc G = sc :: r -> cok W H (te_loc G) c -> vt H v t ->
  exists c', declare c m n v = Done ONorm c' /\ cok W H (((n, t) :: sc) :: r) c'.
Proof.
  intros L C V. rewrite L in C. pose proof (ck_loc _ _ _ _ C) as F. unfold declare. inversion F as [|? vs ? l A B]; subst.
  eexists. split; [reflexivity|]. apply (cok_levels _ _ _ _ _ _ C). constructor; [|exact B]. intros k. cbn. specialize (A k).
  destruct (text_eqb k n); [exact V|exact A].
Qed.
Lemma zero_vt H tn t : zero_type tn t -> vt H (zero_value tn) t.
Proof. intros (p & [->|[->|[->| ->]]] & -> & ->); cbn; constructor. Qed.
Lemma no_assign G n ln s r pr t : ~ ety G (NAssign ln n s r pr) t. Proof. exact (fun H => H). Qed.
(** A loop body ends the loop, goes on, or returns. *)
Lemma loop_ok G H r k : blk_ok W (in_loop G) H false r ->
  (forall c' H', hext H H' -> cok W H' (te_loc G) c' -> blk_ok W G H' false (k c')) ->
  blk_ok W G H false (bind r (fun o c => match o with ONorm | OCont => k c | OBrk => Done ONorm c | o => Done o c end)).
Proof.
  intros A K. destruct r as [o c| | |]; cbn in A |- *; auto. destruct A as (_ & A & H1 & X1 & J1 & C1).
  destruct o; cbn.
  - eapply blk_mono; [exact X1|]. apply K; auto.
  - exfalso. apply (A v). reflexivity.
  - split; [discriminate|]. split; [discriminate|]. exists H1. auto.
  - eapply blk_mono; [exact X1|]. apply K; auto.
  - split; [discriminate|]. split; [discriminate|]. exists H1. auto.
Qed.
Lemma para_start ln n a z inc b G : sty G (NPara ln n a z inc b) G -> Ps (NPara ln n a z inc b).
Proof.
  intros _ G1 G' H c Gl T C. destruct T as [-> T]. pose proof T as (T1 & _). cbn [Sem.ev returns].
  eapply eok_bind; [apply stm_passes|apply ev_sound; eassumption|]. intros v c1 H1 X1 C1 V1.
  apply blk_stm. eapply blk_mono; [exact X1|]. apply Htest; [exact Gl|split; [reflexivity|exact T]|].
  apply (cok_levels _ _ _ _ _ _ C1). constructor; [|apply C1]. intros k. cbn. destruct (text_eqb k n); [exact V1|exact I].
Qed.
Theorem stm_sound x : Qs x.
Proof.
  induction x using node_ind';
  match goal with
  | |- Qs (NBlock _ _) => idtac
  | |- Qs (NSenaoSe _ _ _) => idtac
  | |- _ => split; [intros G G' J0 k0 Gl T C|split; exact I]
  end;
  (* expressions *)
  try (destruct T as [-> (u & T)]; apply expr_stm with (t := u); apply ev_sound; assumption).
  - (* NIndexSet *) destruct T as [-> (t & u & T1 & T2 & T3 & Sb)]. cbn [Sem.ev returns].
    eapply eok_bind; [apply stm_passes|apply ev_sound; eassumption|]. intros tv c1 H1 X1 C1 V1.
    eapply eok_bind; [apply stm_passes|apply ev_sound; eassumption|]. intros iv c2 H2 X2 C2 V2.
    eapply eok_bind; [apply stm_passes|eapply ev_sub; eassumption|]. intros v c3 H3 X3 C3 V3.
    assert (X03 : hext J0 H3) by eauto using hext_trans.
    apply (vt_ext _ _ _ _ (hext_trans _ _ _ X2 X3)) in V1. inversion V1; subst. inversion V2; subst.
    match goal with Q : nth_error H3 _ = _ |- _ => rename Q into Ql; destruct (heap_get _ _ _ _ (ck_heap _ _ _ _ C3) Ql) as (k & A & B) end.
    unfold index_set. cbn [take_int rbind]. rewrite A. destruct k as [vs|]; [|contradiction]. cbn in B.
    unfold vec_index_check. destruct (z <? 0)%Z; [exact I|]. destruct (_ <=? z)%Z; [exact I|]. cbn [rbind].
    eapply norm_ok; [exact X03|]. eapply cok_heap; [exact C3|apply hext_refl|]. cbn.
    eapply heap_set; [apply C3|exact Ql|]. cbn. clear - B V3.
    generalize (Z.to_nat z) as i. induction B as [|y vs Y B IH]; intros [|i]; cbn; constructor; auto.
  - (* NSet *) destruct T as [-> (n & decl & t & u & T1 & T2 & T3 & T4 & Sb)]. cbn [Sem.ev returns].
    eapply eok_bind; [apply stm_passes|apply ev_sound; eassumption|]. intros tv c1 H1 X1 C1 V1.
    eapply eok_bind; [apply stm_passes|eapply ev_sub; eassumption|]. intros v c2 H2 X2 C2 V2.
    apply (vt_ext _ _ _ _ X2) in V1. inversion V1; subst.
    match goal with Q : nth_error H2 _ = _ |- _ => rename Q into Ql; destruct (heap_get _ _ _ _ (ck_heap _ _ _ _ C2) Ql) as (k & A & B) end.
    unfold prop_set. rewrite A. destruct k as [|r st]; [contradiction|]. cbn [take_str rbind].
    eapply norm_ok; [eapply hext_trans; eassumption|]. eapply cok_heap; [exact C2|apply hext_refl|]. cbn.
    eapply heap_set; [apply C2|exact Ql|]. cbn in B |- *. destruct B as (decl' & B1 & B2). assert (decl' = decl) by congruence. subst.
    exists decl. split; [exact B1|]. intros f t' Q. destruct (text_dec f m0) as [->|N].
    + exists v. rewrite assoc_set_same. split; [reflexivity|congruence].
    + rewrite assoc_set_other by exact N. auto.
  - (* NAssign *) destruct T as [-> (t & u & T1 & T2 & Sb)]. cbn [Sem.ev returns].
    assert (Y : stm_ok W G (te_loc G) J0 false (bindv (ev x k0) (fun v c => write_var c m name v))).
    { eapply eok_bind; [apply stm_passes|eapply ev_sub; eassumption|]. intros v c1 H1 X1 C1 V1.
      destruct (write_ok _ _ _ _ _ _ _ Wk Gl C1 T1 V1) as (c2 & -> & C2). eapply norm_ok; eassumption. }
    destruct x; try exact Y. contradiction.
  - (* NVarDecl *) destruct T as (t & sc & r & L & -> & T). cbn [te_loc returns]. destruct i as [i|].
    + destruct i; try contradiction. destruct T as (u & T & Sb). cbn [Sem.ev].
      assert (Y : stm_ok W G (((name, t) :: sc) :: r) J0 false (bindv (ev i k0) (fun v c => declare c m name v))).
      { eapply eok_bind; [apply stm_passes|eapply ev_sub; eassumption|]. intros v c1 H1 X1 C1 V1.
        destruct (declare_ok G H1 c1 name t v sc r L C1 V1) as (c2 & -> & C2). eapply norm_ok; eassumption. }
      destruct i; try exact Y. contradiction.
    + cbn [Sem.ev]. destruct (declare_ok G J0 k0 name t (zero_value ty) sc r L C (zero_vt _ _ _ T)) as (c2 & -> & C2).
      eapply norm_ok; [apply hext_refl|exact C2].
  - (* NSe *) destruct T as [-> (T1 & T2 & T3 & T4)]. cbn [Sem.ev].
    eapply eok_bind; [apply stm_passes|apply ev_sound; eassumption|]. intros v c1 H1 X1 C1 V1. inversion V1; subst.
    apply blk_stm. eapply blk_mono; [exact X1|]. destruct IHx2 as (_ & B2 & _).
    match goal with |- context [if ?q then _ else _] => destruct q end.
    + pose proof (block_ok x2 G H1 c1 B2 Gl T2 C1) as Y. destruct (run_block ev x2 c1); cbn in Y |- *; auto.
      destruct Y as [Y1 Y2]. split; [|exact Y2]. intros Q. apply Y1. destruct el; [|discriminate].
      apply andb_prop in Q as [Q _]. apply andb_prop in Q as [Q _]. exact Q.
    + set (rt := match el with Some b => returns b | None => false end).
      assert (Y : blk_ok W G H1 (forallb returns elifs && rt)
                    (run_elifs ev (fun c => match el with Some b => run_block ev b c | None => Done ONorm c end) elifs c1)).
      { apply elifs_ok; [assumption|exact Gl|exact T3|exact C1|]. intros H2 c2 X2 C2. subst rt. destruct el as [b|].
        - apply block_ok; auto. match goal with Q : optP _ _ |- _ => apply Q end.
        - eapply bnorm_ok; [apply hext_refl|exact C2]. }
      destruct (run_elifs ev _ elifs c1); cbn in Y |- *; auto. destruct Y as [Y1 Y2]. split; [|exact Y2].
      intros Q. apply Y1. subst rt. destruct el; [|discriminate].
      apply andb_prop in Q as [Q1 Q2]. apply andb_prop in Q1 as [_ Q1]. rewrite Q1, Q2. reflexivity.
  - (* NSenaoSe *) split; [|split; [exact I|apply IHx2]]. intros G G' J0 k0 Gl T C. destruct T as [_ (u & [])].
  - (* NBlock *) split; [|split; [|exact I]].
    + intros G G' J0 k0 Gl T C. destruct T as [_ (u & [])].
    + cbn. apply Forall_forall. intros y Iy. match goal with F : Forall _ ch |- _ => rewrite Forall_forall in F; apply (F y Iy) end.
  - (* NEnquanto *) pose proof T as Tw. destruct T as [-> (T1 & T2)]. cbn [Sem.ev returns].
    eapply eok_bind; [apply stm_passes|apply ev_sound; eassumption|]. intros v c1 H1 X1 C1 V1. inversion V1; subst.
    apply blk_stm. eapply blk_mono; [exact X1|]. destruct IHx2 as (_ & B2 & _).
    match goal with |- context [if ?q then _ else _] => destruct q end.
    + apply loop_ok.
      * eapply rt_weak. apply (block_ok x2 (in_loop G) H1 c1 B2 Gl T2 C1).
      * intros c2 H2 X2 C2. apply Hagain; assumption.
    + eapply bnorm_ok; [apply hext_refl|exact C1].
  - (* NPara *) assert (T' := T). destruct T' as [-> _]. exact (para_start _ _ _ _ _ _ G T G G J0 k0 Gl T C).
  - (* NRet *) destruct T as [-> T]. destruct e as [e|]; destruct (te_ret G) as [t|] eqn:Q; try contradiction.
    + destruct T as (u & T & Sb). cbn [Sem.ev returns].
      eapply eok_bind; [apply stm_passes|eapply ev_sub; eassumption|]. intros v c1 H1 X1 C1 V1.
      cbn. split; [reflexivity|]. exists H1. eauto 6.
    + subst t. cbn. split; [reflexivity|]. exists J0. split; [apply hext_refl|]. split; [|exact C]. eexists. split; [exact Q|constructor; auto].
  - (* NMostra *) destruct T as [-> (u & T & Sh)]. cbn [Sem.ev returns].
    eapply eok_bind; [apply stm_passes|apply ev_sound; eassumption|]. intros v c1 H1 X1 C1 V1.
    destruct (show_ok _ _ _ _ (ck_heap _ _ _ _ C1) V1 Sh) as (s & ->). eapply norm_ok; [exact X1|].
    apply cok_world; [exact C1|reflexivity].
  - (* NLoopCtl *) destruct T as [-> T]. cbn. split; [discriminate|]. exists J0. split; [apply hext_refl|].
    destruct q; cbn; auto.
  - (* NNoOp *) destruct T as [-> _]. eapply norm_ok; [apply hext_refl|exact C].
Qed.

Lemma stm_all l : Forall Ps l.
Proof. apply Forall_forall. intros x _. apply stm_sound. Qed.
Lemma blk_all b : Bs b. Proof. destruct b; cbn; auto. apply stm_all. Qed.
(** One round of a counting loop. *)
Lemma round_ok ln n a z inc b G H c : gle (te_g G) W -> sty G (NPara ln n a z inc b) G ->
  cok W H ([(n, tint)] :: te_loc G) c -> blk_ok W G H false (para_round E S rec m d (NPara ln n a z inc b) c).
Proof.
  intros Gl T C. pose proof T as [_ (T1 & T2 & T3 & T4)]. set (G1 := push G [(n, tint)]) in *.
  assert (Vn : var_type G1 n = Some tint) by (unfold var_type; cbn; rewrite text_eqb_refl; reflexivity).
  assert (Gl1 : gle (te_g G1) W) by exact Gl. change ([(n, tint)] :: te_loc G) with (te_loc G1) in C.
  cbn [para_round].
  destruct (read_ok _ _ _ _ _ _ Wk Gl1 C Vn) as (i & -> & Vi). cbn [bindv bind].
  eapply eok_bind; [apply blk_passes|apply ev_sound; eassumption|]. intros s c1 H1 X1 C1 V1.
  eapply eok_bind with (t := tbool); [apply blk_passes| |].
  { eapply lift_ok; [apply hext_refl|exact C1|]. eapply bin_ok; [|eapply vt_ext; eassumption|exact V1].
    apply bt_order; [auto|left; reflexivity|left; reflexivity]. }
  intros v c2 H2 X2 C2 V2. inversion V2; subst. assert (X02 : hext H H2) by eauto using hext_trans.
  match goal with |- context [if ?q then _ else _] => destruct q end.
  - pose proof (block_ok b (in_loop G1) H2 c2 (blk_all b) Gl1 T4 C2) as Y.
    destruct (run_block ev b c2) as [o c3| | |]; cbn in Y |- *; auto. destruct Y as (_ & Y & H3 & X3 & J3 & C3).
    assert (X03 : hext H H3) by eauto using hext_trans. cbn in C3.
    assert (Next : blk_ok W G H false
      (bindv (match inc with Some e => ev e c3 | None => Done (OVal (VInt 1)) c3 end) (fun k c =>
       bindv (read_var S c m n) (fun i c => bindv (lift (k_w c) (sem_binop BAdd k i) c) (fun i' c =>
       bind (write_var c m n i') (fun _ c => rec (Test (NPara ln n a z inc b)) m d c)))))).
    { eapply eok_bind with (t := tint) (H := H3) (L := te_loc G1); [apply blk_passes| |].
      - destruct inc; [apply ev_sound; assumption|]. apply eok_here; [exact C3|constructor].
      - intros k c4 H4 X4 C4 V4. destruct (read_ok _ _ _ _ _ _ Wk Gl1 C4 Vn) as (i' & -> & Vi'). cbn [bindv bind].
        eapply eok_bind with (t := tint); [apply blk_passes| |].
        { eapply lift_ok; [apply hext_refl|exact C4|]. eapply bin_ok; [|exact V4|exact Vi']. apply bt_int. auto. }
        intros i2 c5 H5 X5 C5 V5. destruct (write_ok _ _ _ _ _ _ _ Wk Gl1 C5 Vn V5) as (c6 & -> & C6). cbn [bind].
        apply blk_mono with (H' := H5); [eauto using hext_trans|]. apply Htest; assumption. }
    destruct o; try exact Next.
    + exfalso. apply (Y v). reflexivity.
    + eapply bnorm_ok; [exact X03|]. eapply pop_ok; eassumption.
    + cbn. split; [discriminate|]. split; [discriminate|]. exists H3. split; [exact X03|]. split; [exact J3|]. eapply pop_ok; eassumption.
  - eapply bnorm_ok; [exact X02|]. apply pop_ok with (sc := [(n, tint)]). exact C2.
Qed.
(** The body of a function. *)
Lemma fun_ok g names ts t ch H c : gle g W -> fun_ty S m R g names ts t ch -> cok W H [List.combine names ts] c ->
  body_ok W H t (popr (run_seq ev ch (push_scope c []))).
Proof.
  intros Gl (Len & T & Rt) C.
  pose proof (seq_ok ch (stm_all ch) (fun_env g names ts t) [] [List.combine names ts] H (push_scope c []) Gl T eq_refl) as X.
  cbn [te_loc fun_env] in X. unfold popr.
  specialize (X (push_ok (mkTE g [List.combine names ts] (Some t) false) H c C)).
  destruct (run_seq ev ch _) as [o c1| | |]; cbn in X |- *; auto.
  destruct X as (A & B & H1 & sc1 & X1 & J1 & C1). exists H1, [List.combine names ts]. split; [exact X1|].
  split; [eapply pop_ok; eassumption|]. destruct o; cbn in J1; try discriminate.
  - left. split; [reflexivity|]. destruct Rt as [Rt|Rt]; [exact Rt|]. discriminate (A Rt).
  - exfalso. apply (B v). reflexivity.
  - right. destruct J1 as (t' & Q & V). injection Q as <-. eauto.
Qed.
End Stm.

Theorem exec_sound W : wok W -> forall fuel, rec_body W (exec E S fuel) /\ rec_again W (exec E S fuel) /\ rec_test W (exec E S fuel).
Proof.
  intros Wk. induction fuel as [|fuel (I1 & I2 & I3)]; [repeat split; repeat intro; exact I|]. repeat split.
  - intros d g names ts t ch H c Gl T C. cbn [exec]. apply fun_ok with (g := g) (names := names) (ts := ts); assumption.
  - intros d ln cnd b G H c Gl T C. cbn [exec].
    pose proof (proj1 (stm_sound W Wk _ I1 I2 I3 d (NEnquanto ln cnd b)) G G H c Gl T C) as X.
    pose proof T as [_ (T1 & T2)]. cbn [ev] in *. clear X.
    eapply eok_bind; [apply blk_passes|apply ev_sound; eassumption|]. intros v c1 H1 X1 C1 V1. inversion V1; subst.
    eapply blk_mono; [exact X1|].
    match goal with |- context [if ?q then _ else _] => destruct q end.
    + apply loop_ok.
      * eapply rt_weak. apply (block_ok W (exec E S fuel) d b (in_loop G) H1 c1); auto. apply blk_all; assumption.
      * intros c2 H2 X2 C2. apply I2; assumption.
    + eapply bnorm_ok; [apply hext_refl|exact C1].
  - intros d ln n a z inc b G H c Gl T C. cbn [exec]. apply round_ok; assumption.
Qed.

(** ** The top level *)
Lemma gle_var g n t : assoc n (ge_var g) = None -> gle g (with_var g n t).
Proof.
  intros F. constructor; cbn; auto; [|apply incl_refl]. intros k u Q. destruct (text_eqb k n) eqn:X; [|exact Q].
  apply text_eqb_eq in X as ->. congruence.
Qed.
Lemma gle_fun g n ts t : assoc n (ge_fun g) = None -> gle g (with_fun g n ts t).
Proof.
  intros F. constructor; cbn; auto; [|apply incl_refl]. intros k u Q. destruct (text_eqb k n) eqn:X; [|exact Q].
  apply text_eqb_eq in X as ->. congruence.
Qed.
Lemma gle_rec g n : gle g (with_rec g n).
Proof. constructor; cbn; auto. apply incl_tl, incl_refl. Qed.
Lemma wok_var g n t : wok g -> fresh S m g n -> wok (with_var g n t).
Proof.
  intros [A B C] (F1 & F2 & F3 & F4). constructor; cbn.
  - intros k u Q. destruct (text_eqb k n) eqn:X; [apply text_eqb_eq in X as ->; auto|eauto].
  - auto.
  - intros f ts u Q. destruct (C f ts u Q) as (I1 & names & ch & g0 & Sf & Gl & T). split; [exact I1|].
    exists names, ch, g0. split; [exact Sf|]. split; [eapply gle_trans; [exact Gl|apply gle_var, F2]|exact T].
Qed.
Lemma wok_rec g n : wok g -> fresh S m g n -> wok (with_rec g n).
Proof.
  intros [A B C] (F1 & F2 & F3 & F4). constructor; cbn.
  - intros k u Q. destruct (A k u Q) as [A1 A2]. split; [exact A1|]. intros [->|I1]; [congruence|contradiction].
  - intros k [->|I1]; auto.
  - intros f ts u Q. destruct (C f ts u Q) as (I1 & names & ch & g0 & Sf & Gl & T). split; [exact I1|].
    exists names, ch, g0. split; [exact Sf|]. split; [eapply gle_trans; [exact Gl|apply gle_rec]|exact T].
Qed.
Lemma wok_fun g n ts t names ch : wok g -> fresh S m g n -> se_fun S m n = Some (mkFD names ch) ->
  fun_ty S m R (with_fun g n ts t) names ts t ch -> wok (with_fun g n ts t).
Proof.
  intros [A B C] (F1 & F2 & F3 & F4) Sf T. constructor; cbn; auto.
  intros f ts' u Q. destruct (text_eqb f n) eqn:X.
  - apply text_eqb_eq in X as ->. injection Q as <- <-. split; [exact F1|].
    exists names, ch, (with_fun g n ts t). split; [exact Sf|]. split; [apply gle_refl|exact T].
  - destruct (C f ts' u Q) as (I1 & names' & ch' & g0 & Sf' & Gl & T'). split; [exact I1|].
    exists names', ch', g0. split; [exact Sf'|]. split; [eapply gle_trans; [exact Gl|apply gle_fun, F3]|exact T'].
Qed.
Definition top_ok g1 H (r : res) : Prop :=
  match r with
  | Done o c => normal o = true /\ exists H', hext H H' /\ cok g1 H' [] c
  | Fail _ _ | Fuel => True
  | Stuck => False
  end.
Lemma declared_ok g H c n t v : fresh S m g n -> cok g H [] c -> vt H v t -> cok (with_var g n t) H [] (set_global c m n v).
Proof.
  intros (F1 & F2 & F3 & F4) [A B C D K] V. constructor; auto.
  - intros k u Q. cbn [with_var ge_var assoc] in Q. destruct (text_eqb k n) eqn:X.
    + apply text_eqb_eq in X as ->. injection Q as <-. exists v. rewrite set_global_same. auto.
    + rewrite set_global_other; [auto|]. intros ->. rewrite text_eqb_refl in X. discriminate.
  - intros k I1. cbn in I1. rewrite set_global_other; [auto|]. intros ->. contradiction.
  - intros k u Q. rewrite set_global_lib. auto.
Qed.
Lemma top_sound fuel d g x g1 H c : top_ty S m R g x g1 -> wok g -> cok g H [] c ->
  wok g1 /\ top_ok g1 H (ev E S (exec E S fuel) m d x c).
Proof.
  intros T Wk C. destruct (exec_sound g Wk fuel) as (I1 & I2 & I3). pose proof (ck_loc _ _ _ _ C) as Lc. assert (Q : k_l c = []) by (destruct (k_l c); [reflexivity|inversion Lc]).
  destruct T as [ln n tn t init F T|ln s ps sc ch ts t F Sf T|ln s ps b|ln n fs decl F T|x NV T].
  - split; [apply wok_var; assumption|]. destruct init as [i|].
    + destruct i; try contradiction. destruct T as (u & T & Sb). cbn [ev].
      assert (Y : top_ok (with_var g n t) H (bindv (ev E S (exec E S fuel) m d i c) (fun v c => declare c m n v))).
      { eapply eok_bind with (L := []); [split; cbn; auto|exact (ev_sub g Wk _ I1 d i (top_env g) u t H c (gle_refl g) T Sb C)|].
        intros v c1 H1 X1 C1 V1. pose proof (ck_loc _ _ _ _ C1) as L1. unfold declare. destruct (k_l c1) eqn:Q1; [|inversion L1].
        cbn. split; [reflexivity|]. exists H1. split; [exact X1|]. eapply declared_ok; eassumption. }
      destruct i; try exact Y. contradiction.
    + cbn [ev]. unfold declare. rewrite Q. cbn. split; [reflexivity|]. exists H. split; [apply hext_refl|].
      apply declared_ok; auto. apply zero_vt, T.
  - split; [eapply wok_fun; eassumption|]. cbn. split; [reflexivity|]. exists H. split; [apply hext_refl|].
    destruct C as [A B D K1 K2]. constructor; auto.
  - split; [exact Wk|]. cbn. split; [reflexivity|]. exists H. auto using hext_refl.
  - split; [apply wok_rec; assumption|]. cbn [ev]. split; [reflexivity|]. exists H. split; [apply hext_refl|].
    destruct F as (F1 & F2 & F3 & F4). destruct C as [A B D K1 K2]. constructor; auto.
    + intros k u Q1. rewrite set_global_other; [auto|]. intros ->. cbn in Q1. congruence.
    + intros k I4. cbn in I4. destruct (text_dec k n) as [->|N].
      * rewrite set_global_same. eauto.
      * rewrite set_global_other by exact N. destruct I4; [congruence|auto].
    + intros k u Q1. rewrite set_global_lib. auto.
  - split; [exact Wk|].
    pose proof (proj1 (stm_sound g Wk _ I1 I2 I3 d x) (top_env g) (top_env g) H c (gle_refl g) T C) as X.
    destruct (ev E S (exec E S fuel) m d x c) as [o c1| | |]; cbn in X |- *; auto.
    destruct X as (_ & H1 & X1 & J1 & C1). destruct o; cbn in J1, C1; try discriminate.
    + split; [reflexivity|eauto].
    + split; [reflexivity|eauto].
    + destruct J1 as (t & Q1 & _). discriminate.
Qed.
Theorem module_sound fuel body : forall g g' H c, prog_ty S m R g body g' -> wok g -> cok g H [] c ->
  match exec_module E S fuel m body c with
  | Done o c' => exists H', hext H H' /\ cok g' H' [] c'
  | Fail _ _ | Fuel => True
  | Stuck => False
  end.
Proof.
  unfold exec_module. induction body as [|x body IH]; intros g g' H c T Wk C; cbn [prog_ty] in T.
  - subst g'. cbn. eauto using hext_refl.
  - destruct T as (g1 & T1 & T2). destruct (top_sound fuel 1 g x g1 H c T1 Wk C) as [Wk1 X]. cbn [run_seq].
    destruct (ev E S (exec E S fuel) m 1 x c) as [o c1| | |]; cbn in X |- *; auto.
    destruct X as (N & H1 & X1 & C1). specialize (IH g1 g' H1 c1 T2 Wk1 C1).
    destruct o; try discriminate; (destruct (run_seq _ body c1) as [[]| | |]; cbn in IH |- *; auto;
      destruct IH as (H2 & X2 & C2); exists H2; split; [eapply hext_trans; eassumption|exact C2]).
Qed.
End Sound.
