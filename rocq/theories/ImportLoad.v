(** Loading modules: invariants of the table of modules, and the end of the
    search. *)
From Coq Require Import Relations.
From Verif Require Import Lexer Base Dec Bson Value VM Ast CodeGen Compile Types BaseFacts ValueFacts Syntax Parser Sym Exhaust Check Front
  AcceptBase ImportFacts Spec_Import.
Local Open Scope chk_scope.

Section Load.
Variable F : front_env.
Variable U : uni.
Hypothesis lib : library_imports_nothing F U.
Notation B := (builtins_path F).

Definition lo (st : store) (q : text) : bool := match assoc q (so_mods st) with Some i => mi_loaded i | None => false end.

Lemma usa_eq fuel mode w : visit_usa F U (S fuel) mode w =
  match import_file F w with None => ccerr | Some q => load_module F U (visit_usa F U fuel) q mode end.
Proof. cbn [visit_usa]. unfold import_file. destruct (path_split _) as [h [|c t]]; [reflexivity|]. destruct (resolve_import _ _); reflexivity. Qed.

(** Reading a file changes nothing. *)
Lemma parse_file_inv p s m s' : parse_file F U p s = COk m s' -> s' = s /\ exists src st, f_text F p = Some src /\ Parser.parse U src = POk m st.
Proof.
  unfold parse_file. destruct (f_text F p) as [src|]; [|discriminate]. destruct (Parser.parse U src) eqn:E; try discriminate.
  intros H. injection H as <- <-. eauto 6.
Qed.

(** ** A module without [usa] *)
Lemma same_trans a b c : same_mods a b -> same_mods b c -> same_mods a c.
Proof. intros [A1 A2] [B1 B2]. split; congruence. Qed.
Lemma visit_flag usa m s i s' : visit_module F usa m s = COk i s' -> mi_loaded i = false.
Proof. unfold visit_module. intros H. do 5 (apply cbind_inv in H as (? & ? & _ & H)). apply cret_inv in H as [-> _]. reflexivity. Qed.
Lemma visit_free usa m s : forallb usa_free (sm_children m) = true ->
  match visit_module F usa m s with COk i s' => same_mods s s' | CFuel => False | _ => True end.
Proof.
  intros Hm.
  assert (K : forall s s', True -> same_mods s s' -> True /\ same_mods s s') by auto.
  assert (OK : ok (fun _ => True) same_mods False (visit_module F usa m)).
  { unfold visit_module. repeat (apply ok_bind; [exact same_trans| |intros ?]).
    - apply ok_gcx; exact K.
    - destruct (find _ _); [|apply ok_ret; exact K]. destruct (text_eqb _ _); [apply ok_ret; exact K | exact (fun _ _ => I)].
    - unfold visit_all. apply ok_mapc; [exact K|exact same_trans|]. intros x Hx. apply ok_bind; [exact same_trans| |intros; apply ok_ret; exact K].
      apply ok_visit; [exact K|exact same_trans|]. left. exact (proj1 (forallb_forall _ _) Hm x Hx).
    - apply ok_mapc; [exact K|exact same_trans|]. intros. apply ok_trans; [exact K|exact same_trans].
    - apply ok_gcx; exact K.
    - apply ok_ret; exact K. }
  pose proof (OK s I) as H2. destruct (visit_module F usa m s); auto. apply H2.
Qed.

(** ** Starting an analyser: the built-ins *)
Variable T : Prop.
Hypothesis parses : T \/ forall src, Parser.parse U src <> PFuel.

(** What a computation does when it goes through, and that it ends. *)
Definition does {A} (m : M A) (s : sst) (Q : A -> sst -> Prop) : Prop :=
  match m s with COk a s' => Q a s' | CFuel => T | _ => True end.
Lemma does_bind {A C} (m : M A) (f : A -> M C) s Q (Q' : A -> sst -> Prop) : does m s Q' -> (forall a s', Q' a s' -> does (f a) s' Q) -> does (cbind m f) s Q.
Proof. unfold does, cbind. intros H1 H2. destruct (m s) as [a s1|? ?| |]; auto. apply (H2 a s1 H1). Qed.
Lemma does_imp {A} (m : M A) s (Q Q' : A -> sst -> Prop) : does m s Q' -> (forall a s', Q' a s' -> Q a s') -> does m s Q.
Proof. unfold does. destruct (m s); auto. Qed.
Lemma does_same {A} (m : M A) s (Q : A -> sst -> Prop) : (forall (P : sst -> Prop) (R : sst -> sst -> Prop) T, (forall s s', P s -> same_mods s s' -> P s' /\ R s s') -> (forall a b c, R a b -> R b c -> R a c) -> ok P R T m) ->
  (forall a s', m s = COk a s' -> same_mods s s' -> Q a s') -> does m s Q.
Proof.
  intros H HQ. specialize (H (fun _ => True) same_mods T ltac:(auto) same_trans s I). unfold does. destruct (m s) as [a s1|? ?| |]; auto. apply HQ; [reflexivity|apply H].
Qed.
Lemma does_parse p s (Q : smodule -> sst -> Prop) : (forall src m st, f_text F p = Some src -> Parser.parse U src = POk m st -> Q m s) -> does (parse_file F U p) s Q.
Proof.
  intros H. unfold does, parse_file. destruct (f_text F p) as [src|]; cbn; auto. destruct (Parser.parse U src) eqn:E; cbn; eauto.
  destruct parses as [HT|HP]; [exact HT|]. destruct (HP _ E).
Qed.

Definition mods_but (p : text) (s s' : sst) : Prop := forall q, q <> p -> assoc q (so_mods (sst_st s')) = assoc q (so_mods (sst_st s)).
Lemma does_set_loaded {A} p i (k : M A) s (Q : A -> sst -> Prop) :
  (forall s', so_imports (sst_st s') = so_imports (sst_st s) -> mods_but p s s' -> lo (sst_st s') p = true -> does k s' Q) ->
  does (set_mod p i ;;; set_loaded p ;;; k) s Q.
Proof.
  intros H. unfold does, set_mod, set_loaded, mst, gst, must, cbind. cbn. rewrite assoc_set_eq. cbn. unfold set_mod, mst. cbn. apply H; cbn.
  - reflexivity.
  - intros q Hq. cbn. rewrite !assoc_set_neq by exact Hq. reflexivity.
  - unfold lo. cbn. rewrite assoc_set_eq. reflexivity.
Qed.
Lemma does_start usa p s : does (start_analyzer F U usa p) s (fun _ s' => so_imports (sst_st s') = [B] /\ mods_but B s s' /\ lo (sst_st s') B = true).
Proof.
  unfold start_analyzer. eapply does_bind; [apply does_same; [intros; apply ok_scope; auto|]; intros g s1 _ S1; exact S1|]. intros g s1 S1.
  eapply does_bind; [apply does_same; [intros; apply ok_scope; auto|]; intros t s2 _ S2; exact (same_trans _ _ _ S1 S2)|]. intros t s2 S2. clear s1 S1.
  eapply does_bind; [apply does_same; [intros; apply ok_mcx; auto|]; intros u s3 _ S3; exact (same_trans _ _ _ S2 S3)|]. intros u s3 S3. clear s2 S2.
  eapply does_bind; [apply does_same; [intros; apply ok_mapc; auto; intros; apply ok_define; auto|]; intros l s4 _ S4; exact (same_trans _ _ _ S3 S4)|]. intros l s4 S4. clear s3 S3.
  eapply does_bind with (Q' := fun _ s' => so_imports (sst_st s') = [] /\ so_mods (sst_st s') = so_mods (sst_st s)).
  { unfold does, mst. cbn. split; [reflexivity|]. apply S4. }
  intros _ s5 [I5 M5]. clear s4 S4.
  eapply does_bind with (Q' := fun _ s' => so_imports (sst_st s') = [B] /\ mods_but B s s' /\ lo (sst_st s') B = true).
  { unfold load_global.
    eapply does_bind; [apply does_same; [intros; apply ok_gcx; auto|]; intros ? s6 _ S6; exact S6|]. intros prev s6 S6.
    eapply does_bind; [apply does_same; [intros; apply ok_set_module; auto|]; intros ? s7 _ S7; exact (same_trans _ _ _ S6 S7)|]. intros _ s7 [I7 M7].
    eapply does_bind with (Q' := fun _ s' => so_imports (sst_st s') = [B] /\ so_mods (sst_st s') = so_mods (sst_st s)).
    { unfold does, mst. cbn. rewrite I7, I5. split; [reflexivity|congruence]. }
    intros _ s8 [I8 M8].
    eapply does_bind; [apply does_parse with (Q := fun m s' => s' = s8 /\ forallb usa_free (sm_children m) = true)|].
    { intros src m st E1 E2. split; [reflexivity|]. exact (lib src m st E1 E2). }
    intros m s9 [-> Hfree].
    eapply does_bind with (Q' := fun i s' => same_mods s8 s' /\ mi_loaded i = false).
    { pose proof (visit_free usa m s8 Hfree) as H. unfold does. destruct (visit_module F usa m s8) eqn:E; auto; [|destruct H]. split; [exact H|]. eapply visit_flag; eauto. }
    intros i s9 [[I9 M9] Hi].
    apply does_set_loaded. intros s10 I10 M10 L10. apply does_same; [intros; apply ok_set_module; auto|]. intros ? s11 _ [I11 M11].
    split; [congruence|]. split.
    - intros q Hq. rewrite M11. rewrite (M10 q Hq). rewrite M9, M8. reflexivity.
    - unfold lo in *. rewrite M11. exact L10. }
  intros _ s6 (I6 & M6 & L6).
  apply does_imp with (Q' := fun _ s' => same_mods s6 s').
  - apply does_same; [|auto]. intros P R T' K RT.
    apply ok_bind; [exact RT|apply ok_gst; auto|intros o]. apply ok_bind; [exact RT|apply ok_must; auto|intros i].
    apply ok_bind; [exact RT|apply ok_sym_at; auto|intros x].
    destruct (s_kind x) as [| | | | |? ? tps| |]; try (apply ok_crash; auto). destruct tps as [|? [|? ?]]; try (apply ok_crash; auto).
    apply ok_mst; auto.
  - intros _ s7 [I7 M7]. split; [congruence|]. split; [intros q Hq; rewrite M7; exact (M6 q Hq)|]. unfold lo in *. rewrite M7. exact L6.
Qed.

(** ** The invariant *)
Variable files : list text.
Definition rem (s : sst) : nat := List.length (filter (fun f => negb (existsb (text_eqb f) (so_imports (sst_st s)))) files).
(** A module whose imports are acyclic. *)
Definition grounded : text -> Prop := Acc (fun r q => uses F U q r).
(** ... and all loaded. *)
Definition ready (s : sst) (q : text) : Prop := grounded q /\ forall r, uses F U q r -> lo (sst_st s) r = true.
Definition inv (s : sst) : Prop :=
  NoDup (so_imports (sst_st s)) /\ In B (so_imports (sst_st s)) /\
  forall q, lo (sst_st s) q = true -> ready s q /\ In q (so_imports (sst_st s)).
Definition rel (s s' : sst) : Prop :=
  incl (so_imports (sst_st s)) (so_imports (sst_st s')) /\ forall q, lo (sst_st s) q = true -> lo (sst_st s') q = true.
Definition fuelled (n : nat) (s : sst) : Prop := T \/ (only_files F files /\ rem s < n)%nat.

Lemma known_in q l : existsb (text_eqb q) l = true <-> In q l.
Proof.
  rewrite existsb_exists. split.
  - intros (x & Hx & E). apply text_eqb_eq in E as ->. exact Hx.
  - intros H. exists q. split; [exact H|apply text_eqb_refl].
Qed.
Lemma rel_refl s : rel s s.
Proof. split; [apply incl_refl|auto]. Qed.
Lemma rel_trans a b c : rel a b -> rel b c -> rel a c.
Proof. intros [A1 A2] [B1 B2]. split; [eapply incl_tran; eauto|auto]. Qed.
Lemma filter_le {A} (f g : A -> bool) l : (forall x, f x = true -> g x = true) -> (List.length (filter f l) <= List.length (filter g l))%nat.
Proof. intros H. induction l as [|x l IH]; cbn; [lia|]. destruct (f x) eqn:E; [rewrite (H x E); cbn; lia|]. destruct (g x); cbn; lia. Qed.
Lemma filter_lt {A} (f g : A -> bool) l a : In a l -> f a = false -> g a = true -> (forall x, f x = true -> g x = true) ->
  (List.length (filter f l) < List.length (filter g l))%nat.
Proof.
  intros Hin Fa Ga H. induction l as [|x l IH]; [destruct Hin|]. destruct Hin as [->|Hin].
  - cbn. rewrite Fa, Ga. cbn. pose proof (filter_le f g l H). lia.
  - specialize (IH Hin). cbn. destruct (f x) eqn:E; [rewrite (H x E); cbn; lia|]. destruct (g x); cbn; lia.
Qed.
Lemma rem_mono s s' : incl (so_imports (sst_st s)) (so_imports (sst_st s')) -> (rem s' <= rem s)%nat.
Proof.
  intros H. apply filter_le. intros x Hx. apply negb_true_iff in Hx. apply negb_true_iff. destruct (existsb _ (so_imports (sst_st s))) eqn:E; [|reflexivity].
  apply known_in in E. apply H in E. apply known_in in E. congruence.
Qed.
Lemma fuelled_mono n s s' : fuelled n s -> incl (so_imports (sst_st s)) (so_imports (sst_st s')) -> fuelled n s'.
Proof. intros [H|[H1 H2]] Hi; [left; exact H|right]. split; [exact H1|]. pose proof (rem_mono s s' Hi). lia. Qed.
Lemma lo_same s s' : same_mods s s' -> forall q, lo (sst_st s') q = lo (sst_st s) q.
Proof. intros [_ M] q. unfold lo. rewrite M. reflexivity. Qed.
Lemma inv_same s s' : inv s -> same_mods s s' -> inv s' /\ rel s s'.
Proof.
  intros (N & HB & L) S. pose proof (lo_same _ _ S) as LS. destruct S as [I M]. unfold inv, rel. rewrite I. split.
  - split; [exact N|]. split; [exact HB|]. intros q Hq. rewrite LS in Hq. apply L in Hq as [[G Hr] Hq]. split; [split; [exact G|]|exact Hq]. intros r Ur. rewrite LS. auto.
  - split; [apply incl_refl|]. intros q Hq. rewrite LS. exact Hq.
Qed.

(** What a [usa] and a module do. *)
Definition usa_good (n : nat) (usa : smode -> text -> M unit) : Prop := forall mode w s, inv s -> fuelled n s ->
  does (usa mode w) s (fun _ s' => inv s' /\ rel s s' /\ forall r, import_file F w = Some r -> lo (sst_st s') r = true).

Section Mod.
Variable n : nat.
Variable usa : smode -> text -> M unit.
Hypothesis good : usa_good n usa.
Let P (s : sst) : Prop := inv s /\ fuelled n s.
Lemma P_keep s s' : P s -> same_mods s s' -> P s' /\ rel s s'.
Proof.
  intros [H1 H2] S. destruct (inv_same s s' H1 S) as [H3 H4]. split; [split; [exact H3|]|exact H4]. eapply fuelled_mono; [exact H2|apply H4].
Qed.
Lemma usa_ok mode w : ok P rel T (usa mode w).
Proof.
  intros s [H1 H2]. pose proof (good mode w s H1 H2) as H. unfold does in H. destruct (usa mode w s); auto. destruct H as (A & R1 & _). split; [split; [exact A|]|exact R1].
  eapply fuelled_mono; [exact H2|apply R1].
Qed.
Definition all_loaded (l : list sx) (s : sst) : Prop := forall t mode w r, In (XUsa t mode w) l -> import_file F (lex_text w) = Some r -> lo (sst_st s) r = true.
Lemma does_ok {A} (m : M A) s (Q : A -> sst -> Prop) : ok P rel T m -> P s -> (forall a s', P s' -> rel s s' -> Q a s') -> does m s Q.
Proof. intros H Hs HQ. specialize (H s Hs). unfold does. destruct (m s); auto. destruct H. auto. Qed.
Lemma does_all : forall l s, P s -> does (visit_all F usa l) s (fun _ s' => P s' /\ rel s s' /\ all_loaded l s').
Proof.
  unfold visit_all. induction l as [|x l IH]; intros s Hs.
  - cbn. split; [exact Hs|]. split; [apply rel_refl|]. intros ? ? ? ? [].
  - cbn [mapc]. eapply does_bind with (Q' := fun _ s1 => P s1 /\ rel s s1 /\ all_loaded [x] s1).
    + eapply does_bind with (Q' := fun _ s1 => P s1 /\ rel s s1 /\ all_loaded [x] s1); [|intros a s1 H1; exact H1].
      assert (D : (exists t mode w, x = XUsa t mode w) \/ forall t mode w, x <> XUsa t mode w).
      { destruct x; try (right; intros; discriminate). left; eauto. }
      destruct D as [(t & mode & w & ->)|D].
      * cbn [visit]. eapply does_bind; [apply does_same; [intros; apply ok_set_line; auto|]; intros ? s1 _ S1; exact S1|]. intros u s1 S1. cbv beta in S1.
        destruct (P_keep s s1 Hs S1) as [P1 R1]. destruct P1 as [I1 F1].
        eapply does_bind; [exact (good mode (lex_text w) s1 I1 F1)|]. intros _ s2 (I2 & R2 & L2). cbn.
        split; [split; [exact I2|eapply fuelled_mono; [exact F1|apply R2]]|]. split; [eapply rel_trans; eauto|].
        intros t' mode' w' r [E|[]] Er. injection E as -> -> ->. apply L2. exact Er.
      * apply does_ok with (1 := ok_visit P rel P_keep rel_trans T F usa x PNone None false (or_intror usa_ok)) (2 := Hs).
        intros a s' P' R'. split; [exact P'|]. split; [exact R'|]. intros t mode w r [E|[]]. destruct (D t mode w E).
    + intros a s1 (P1 & R1 & L1). eapply does_bind; [exact (IH s1 P1)|]. intros b s2 (P2 & R2 & L2). cbn.
      split; [exact P2|]. split; [eapply rel_trans; eauto|]. intros t mode w r [E|Hin] Er; [|eapply L2; eauto].
      apply R2. eapply L1; [left; exact E|exact Er].
Qed.
Lemma does_module m s : inv s -> fuelled n s ->
  does (visit_module F usa m) s (fun _ s' => inv s' /\ rel s s' /\ all_loaded (sm_children m) s').
Proof.
  intros H1 H2. assert (Hs : P s) by (split; assumption). unfold visit_module.
  eapply does_bind; [apply does_ok with (1 := ok_gcx P rel P_keep T _) (2 := Hs); intros a s1 P1 R1; exact (conj P1 R1)|]. intros p s1 [P1 R1].
  eapply does_bind with (Q' := fun _ s2 => P s2 /\ rel s s2).
  { destruct (find _ _); [|exact (conj P1 R1)]. destruct (text_eqb _ _); [exact (conj P1 R1)|exact I]. }
  intros b s2 [P2 R2]. eapply does_bind; [exact (does_all _ s2 P2)|]. intros body s3 (P3 & R3 & L3).
  eapply does_bind; [apply does_ok with (1 := ok_mapc P rel P_keep rel_trans T trans body (fun a _ => ok_trans P rel P_keep rel_trans T a)) (2 := P3); intros a s4 P4 R4; exact (conj P4 R4)|].
  intros body' s4 [P4 R4]. cbn. split; [apply P4|]. split; [eapply rel_trans; [exact R2|eapply rel_trans; eauto]|].
  intros t mode w r Hin Er. apply R4. eapply L3; eauto.
Qed.
End Mod.

(** ** Loading *)
Lemma lib_nothing r : ~ uses F U B r.
Proof.
  intros (src & m & st & t & mode & w & E1 & E2 & Hin & _). pose proof (lib src m st E1 E2) as H.
  rewrite forallb_forall in H. specialize (H _ Hin). discriminate H.
Qed.
Lemma lib_grounded : grounded B.
Proof. constructor. intros r H. destruct (lib_nothing r H). Qed.
Lemma lib_ready s : ready s B.
Proof. split; [exact lib_grounded|]. intros r H. destruct (lib_nothing r H). Qed.
Lemma uses_loaded q src m st s : f_text F q = Some src -> Parser.parse U src = POk m st -> inv s -> all_loaded (sm_children m) s -> ready s q.
Proof.
  intros E1 E2 (_ & _ & L) H. assert (HU : forall r, uses F U q r -> lo (sst_st s) r = true); [|split; [constructor; intros r Hr; apply L; auto|exact HU]]. intros r (src' & m' & st' & t & mode & w & E1' & E2' & Hin & Er).
  rewrite E1 in E1'. injection E1' as <-. rewrite E2 in E2'. injection E2' as <- <-. eapply H; eauto.
Qed.
Lemma finish q s1 s2 s3 : ready s2 q -> In q (so_imports (sst_st s1)) -> inv s2 -> rel s1 s2 ->
  so_imports (sst_st s3) = so_imports (sst_st s2) -> mods_but q s2 s3 -> lo (sst_st s3) q = true -> inv s3 /\ rel s1 s3.
Proof.
  intros G Hq (N & HB & L) [R1 R2] I3 M3 L3.
  assert (D : forall q', q' = q \/ lo (sst_st s3) q' = lo (sst_st s2) q').
  { intros q'. destruct (list_eq_dec N.eq_dec q' q) as [E|E]; [left; exact E|right]. unfold lo. rewrite (M3 q' E). reflexivity. }
  split.
  - assert (Up : forall r, lo (sst_st s2) r = true -> lo (sst_st s3) r = true) by (intros r Hr; destruct (D r) as [->|E]; congruence).
    unfold inv. rewrite I3. split; [exact N|]. split; [exact HB|]. intros q' H. destruct G as [G Gr].
    destruct (D q') as [->|E]; [split; [split; auto|apply R1; exact Hq]|]. rewrite E in H. apply L in H as [[G' Gr'] H]. split; [split; auto|exact H].
  - unfold rel. rewrite I3. split; [exact R1|]. intros q' H. destruct (D q') as [->|E]; [exact L3|]. rewrite E. auto.
Qed.
Lemma NoDup_app_one {A} (l : list A) a : NoDup l -> ~ In a l -> NoDup (l ++ [a]).
Proof.
  induction l as [|x l IH]; intros N H; [constructor; [intros []|constructor]|]. inversion N; subst. cbn. constructor.
  - intros Hin. apply in_app_or in Hin as [Hin|[->|[]]]; [contradiction|]. apply H. left. reflexivity.
  - apply IH; [assumption|]. intros Hin. apply H. right. exact Hin.
Qed.
Lemma add_import q s s1 n : inv s -> fuelled (S n) s -> T \/ (only_files F files -> In q files) -> existsb (text_eqb q) (so_imports (sst_st s)) = false ->
  so_imports (sst_st s1) = so_imports (sst_st s) ++ [q] -> so_mods (sst_st s1) = so_mods (sst_st s) ->
  inv s1 /\ fuelled n s1 /\ rel s s1 /\ In q (so_imports (sst_st s1)).
Proof.
  intros (N & HB & L) Fu Hf K I1 M1.
  assert (Hq : ~ In q (so_imports (sst_st s))) by (intros H; apply known_in in H; congruence).
  assert (LS : forall q', lo (sst_st s1) q' = lo (sst_st s) q') by (intros; unfold lo; rewrite M1; reflexivity).
  assert (Hi : incl (so_imports (sst_st s)) (so_imports (sst_st s1))) by (rewrite I1; apply incl_appl, incl_refl).
  split; [|split; [|split]].
  - unfold inv. rewrite I1. split; [|split].
    + apply NoDup_app_one; assumption.
    + apply in_or_app; left; exact HB.
    + intros q' H. rewrite LS in H. apply L in H as [[G Gr] H]. split; [split; [exact G|intros r Hr; rewrite LS; auto]|]. apply in_or_app; left; exact H.
  - destruct Fu as [H|[HO Hr]]; [left; exact H|]. destruct Hf as [H|Hf]; [left; exact H|]. right. split; [exact HO|].
    assert (rem s1 < rem s)%nat; [|lia]. apply filter_lt with (a := q).
    + exact (Hf HO).
    + apply negb_false_iff, known_in. rewrite I1. apply in_or_app. right. left. reflexivity.
    + rewrite K. reflexivity.
    + intros x Hx. apply negb_true_iff in Hx. apply negb_true_iff. destruct (existsb (text_eqb x) (so_imports (sst_st s))) eqn:E; [|reflexivity].
      apply known_in in E. apply Hi in E. apply known_in in E. congruence.
  - split; [exact Hi|]. intros q' H. rewrite LS. exact H.
  - rewrite I1. apply in_or_app. right. left. reflexivity.
Qed.

Lemma ok_alias a q (P : sst -> Prop) (R : sst -> sst -> Prop) (K : forall s s', P s -> same_mods s s' -> P s' /\ R s s') (RT : forall a b c, R a b -> R b c -> R a c) T' : ok P R T' (define_alias a q).
Proof.
  unfold define_alias. apply ok_bind; [exact RT|apply ok_gcx; auto|intros ln]. apply ok_bind; [exact RT|apply ok_free; auto|intros _].
  apply ok_bind; [exact RT|apply ok_new; auto|intros i]. apply ok_bind; [exact RT|apply ok_gcx; auto|intros g]. apply ok_define; auto.
Qed.
Lemma ok_items q p l (P : sst -> Prop) (R : sst -> sst -> Prop) (K : forall s s', P s -> same_mods s s' -> P s' /\ R s s') (RT : forall a b c, R a b -> R b c -> R a c) T' : ok P R T' (items q p l).
Proof.
  unfold items. destruct l as [|x l]; [apply ok_crash; auto|]. revert x. induction l as [|y l IH]; intros x; cbn [define_items].
  all: apply ok_bind; [exact RT|apply ok_mod_scope; auto|intros sc]; apply ok_bind; [exact RT|apply ok_gst; auto|intros o].
  all: apply ok_bind; [exact RT|apply ok_set_module; auto|intros _]; destruct o as [i|]; [|apply ok_ccerr; auto].
  all: apply ok_bind; [exact RT|apply ok_gcx; auto|intros ln]; apply ok_bind; [exact RT|apply ok_free; auto|intros _].
  all: apply ok_bind; [exact RT|apply ok_gcx; auto|intros g]; apply ok_bind; [exact RT|apply ok_define; auto|intros _].
  - apply ok_ret; auto.
  - apply IH.
Qed.

Section One.
Variable n : nat.
Variable usa : smode -> text -> M unit.
Hypothesis good : usa_good n usa.

Lemma does_scoped q s1 : inv s1 -> fuelled n s1 -> In q (so_imports (sst_st s1)) ->
  does (load_scoped F U usa q) s1 (fun _ s' => exists s2 i, ready s2 q /\ inv s2 /\ rel s1 s2 /\ so_imports (sst_st s') = so_imports (sst_st s2) /\
    so_mods (sst_st s') = assoc_set (so_mods (sst_st s2)) q i).
Proof.
  intros H1 F1 Hq. unfold load_scoped.
  eapply does_bind with (Q' := fun _ s => s = s1); [reflexivity|]. intros cx s ->.
  eapply does_bind with (Q' := fun l s => s = s1 /\ l = so_imports (sst_st s1)); [cbn; auto|]. intros l s [-> ->].
  eapply does_bind; [apply does_start|]. intros _ s2 (I2 & M2 & L2).
  eapply does_bind with (Q' := fun _ s3 => inv s3 /\ rel s1 s3 /\ fuelled n s3).
  { cbn. set (s3 := mkSst _ _). assert (I3 : so_imports (sst_st s3) = so_imports (sst_st s1)) by reflexivity.
    assert (E3 : forall x, lo (sst_st s3) x = lo (sst_st s2) x) by reflexivity.
    assert (H3 : inv s3 /\ rel s1 s3).
    { apply (finish B s1 s1 s3); [apply lib_ready|exact (proj1 (proj2 H1))|exact H1|apply rel_refl|reflexivity|exact M2|rewrite E3; exact L2]. }
    destruct H3 as [A Bq]. split; [exact A|]. split; [exact Bq|]. eapply fuelled_mono; [exact F1|]. rewrite I3. apply incl_refl. }
  intros _ s3 (H3 & R3 & F3).
  eapply does_bind; [apply does_parse with (Q := fun m s => s = s3 /\ exists src st, f_text F q = Some src /\ Parser.parse U src = POk m st); eauto 6|].
  intros m s (-> & src & st & E1 & E2).
  eapply does_bind; [apply (does_module n usa good m s3 H3 F3)|]. intros i s4 (H4 & R4 & L4). cbn.
  exists s4, i. split; [eapply uses_loaded; eauto|]. split; [exact H4|]. split; [eapply rel_trans; eauto|]. split; reflexivity.
Qed.

Lemma does_load q mode s : inv s -> fuelled (S n) s -> T \/ (only_files F files -> In q files) ->
  does (load_module F U usa q mode) s (fun _ s' => inv s' /\ rel s s' /\ lo (sst_st s') q = true).
Proof.
  intros H0 F0 Hf. unfold load_module.
  eapply does_bind with (Q' := fun b s' => s' = s /\ b = existsb (text_eqb q) (so_imports (sst_st s))); [cbn; auto|]. intros known s' [-> Ek].
  eapply does_bind with (Q' := fun b s' => s' = s /\ b = lo (sst_st s) q); [cbn; auto|]. intros loaded s' [-> El].
  eapply does_bind with (Q' := fun _ s' => s' = s); [reflexivity|]. intros prev s' ->.
  assert (Quiet : forall s', same_mods s s' -> lo (sst_st s) q = true -> inv s' /\ rel s s' /\ lo (sst_st s') q = true).
  { intros s' S L. destruct (inv_same s s' H0 S) as [A Bq]. split; [exact A|]. split; [exact Bq|]. rewrite (lo_same _ _ S). exact L. }
  destruct known.
  { destruct loaded; [|exact I]. destruct mode as [|a|l].
    - cbn. apply Quiet; [split; reflexivity|auto].
    - apply does_same; [intros; apply ok_alias; auto|]. intros ? s' _ S. apply Quiet; auto.
    - apply does_same; [intros; apply ok_items; auto|]. intros ? s' _ S. apply Quiet; auto. }
  assert (Finish : forall s1 s2 s3 , inv s1 -> rel s s1 -> In q (so_imports (sst_st s1)) -> ready s2 q -> inv s2 -> rel s1 s2 ->
    so_imports (sst_st s3) = so_imports (sst_st s2) -> mods_but q s2 s3 -> lo (sst_st s3) q = true -> inv s3 /\ rel s s3 /\ lo (sst_st s3) q = true).
  { intros s1 s2 s3 _ R01 Hq G H2 R12 I3 M3 L3. destruct (finish q s1 s2 s3 G Hq H2 R12 I3 M3 L3) as [A Bq]. split; [exact A|]. split; [eapply rel_trans; eauto|exact L3]. }
  destruct mode as [|a|l].
  - unfold load_global.
    eapply does_bind with (Q' := fun _ s' => s' = s); [reflexivity|]. intros prev' s' ->.
    eapply does_bind with (Q' := fun _ s' => same_mods s s'); [apply does_same; [intros; apply ok_set_module; auto|auto]|]. intros _ sa [Ia Ma].
    eapply does_bind with (Q' := fun _ s1 => inv s1 /\ fuelled n s1 /\ rel s s1 /\ In q (so_imports (sst_st s1))).
    { cbn. eapply add_import; eauto; cbn; congruence. }
    intros _ s1 (H1 & F1 & R1 & Hq).
    eapply does_bind; [apply does_parse with (Q := fun m s' => s' = s1 /\ exists src st, f_text F q = Some src /\ Parser.parse U src = POk m st); eauto 6|].
    intros m s' (-> & src & st & E1 & E2).
    eapply does_bind; [apply (does_module n usa good m s1 H1 F1)|]. intros i s2 (H2 & R2 & L2).
    apply does_set_loaded. intros s3 I3 M3 L3. apply does_same; [intros; apply ok_set_module; auto|]. intros ? s4 _ [I4 M4].
    apply (Finish s1 s2 s4); auto; [eapply uses_loaded; eauto|congruence| |].
    + intros q' Hq'. rewrite M4. exact (M3 q' Hq').
    + unfold lo in *. rewrite M4. exact L3.
  - eapply does_bind with (Q' := fun _ s' => same_mods s s'); [apply does_same; [intros; apply ok_set_module; auto|auto]|]. intros _ sa [Ia Ma].
    eapply does_bind with (Q' := fun _ s1 => inv s1 /\ fuelled n s1 /\ rel s s1 /\ In q (so_imports (sst_st s1))).
    { cbn. eapply add_import; eauto; cbn; congruence. }
    intros _ s1 (H1 & F1 & R1 & Hq).
    eapply does_bind; [exact (does_scoped q s1 H1 F1 Hq)|]. intros _ s3 (s2 & i & G & H2 & R2 & I3 & M3).
    eapply does_bind with (Q' := fun _ s4 => same_mods s3 s4); [apply does_same; [intros; apply ok_alias; auto|auto]|]. intros _ s4 [I4 M4].
    unfold set_loaded, does, gst, must, cbind. cbn. rewrite M4, M3, assoc_set_eq. cbn.
    apply (Finish s1 s2); cbn; auto; [congruence| |].
    + intros q' Hq'. cbn. rewrite M4, M3. rewrite !assoc_set_neq by exact Hq'. reflexivity.
    + unfold lo. cbn. rewrite assoc_set_eq. reflexivity.
  - eapply does_bind with (Q' := fun _ s' => same_mods s s'); [apply does_same; [intros; apply ok_set_module; auto|auto]|]. intros _ sa [Ia Ma].
    eapply does_bind with (Q' := fun _ s1 => inv s1 /\ fuelled n s1 /\ rel s s1 /\ In q (so_imports (sst_st s1))).
    { cbn. eapply add_import; eauto; cbn; congruence. }
    intros _ s1 (H1 & F1 & R1 & Hq).
    eapply does_bind with (Q' := fun _ s' => s' = s1); [destruct l; cbn; auto|]. intros _ s' ->.
    eapply does_bind; [exact (does_scoped q s1 H1 F1 Hq)|]. intros _ s3 (s2 & i & G & H2 & R2 & I3 & M3).
    eapply does_bind with (Q' := fun _ s4 => same_mods s3 s4); [apply does_same; [intros; apply ok_items; auto|auto]|]. intros _ s4 [I4 M4].
    unfold set_loaded, does, gst, must, cbind. cbn. rewrite M4, M3, assoc_set_eq. cbn.
    apply (Finish s1 s2); cbn; auto; [congruence| |].
    + intros q' Hq'. cbn. rewrite M4, M3. rewrite !assoc_set_neq by exact Hq'. reflexivity.
    + unfold lo. cbn. rewrite assoc_set_eq. reflexivity.
Qed.
End One.

Lemma import_in w q : import_file F w = Some q -> only_files F files -> In q files.
Proof.
  unfold import_file. destruct (path_split _) as [h [|c t]]; [discriminate|]. unfold resolve_import.
  destruct (f_isfile F _) eqn:E1; [intros H HO; injection H as <-; apply HO; exact E1|].
  destruct (f_isfile F (path_join (f_std F) _)) eqn:E2; [intros H HO; injection H as <-; apply HO; exact E2|discriminate].
Qed.
Lemma usa_is_good : forall fuel, usa_good fuel (visit_usa F U fuel).
Proof.
  induction fuel as [|fuel IH]; intros mode w s H0 F0.
  - unfold does. cbn. destruct F0 as [H|[_ H]]; [exact H|lia].
  - rewrite usa_eq. destruct (import_file F w) as [q|] eqn:E; [|exact I].
    eapply does_imp; [apply (does_load fuel _ IH q mode s H0 F0)|]. { right. eapply import_in; eauto. }
    intros _ s' (A & Bq & C). split; [exact A|]. split; [exact Bq|]. intros r Er. injection Er as <-. exact C.
Qed.

(** The whole analysis. *)
Lemma does_analyse fuel p : T \/ (only_files F files /\ List.length files < fuel)%nat ->
  does (run_frontend F U fuel p) (start_sst F) (fun _ s' => inv s' /\ ready s' p).
Proof.
  intros HF. unfold run_frontend.
  eapply does_bind; [apply does_parse with (Q := fun m s' => s' = start_sst F /\ exists src st, f_text F p = Some src /\ Parser.parse U src = POk m st); eauto 6|].
  intros m s' (-> & src & st & E1 & E2).
  eapply does_bind; [apply does_start|]. intros _ s1 (I1 & M1 & L1).
  assert (H1 : inv s1).
  { unfold inv. rewrite I1. split; [repeat constructor; auto|]. split; [left; reflexivity|]. intros q Hq.
    destruct (list_eq_dec N.eq_dec q B) as [->|E]; [split; [apply lib_ready|left; reflexivity]|]. unfold lo in Hq. rewrite (M1 q E) in Hq. discriminate. }
  assert (F1 : fuelled fuel s1).
  { destruct HF as [H|[HO HL]]; [left; exact H|right]. split; [exact HO|]. unfold rem.
    enough (List.length (filter (fun f => negb (existsb (text_eqb f) (so_imports (sst_st s1)))) files) <= List.length files)%nat by lia.
    etransitivity; [apply filter_le with (g := fun _ => true); auto|]. clear. induction files; cbn; lia. }
  eapply does_imp; [apply (does_module fuel _ (usa_is_good fuel) m s1 H1 F1)|]. intros i s2 (H2 & R2 & L2).
  split; [exact H2|]. eapply uses_loaded; eauto.
Qed.
End Load.
