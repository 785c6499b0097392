(** The code generator keeps track of the height of the operand stack. *)
From Verif Require Import Base BaseFacts Bson BsonFacts Opcode Spec_Opcode OpcodeFacts Value Ast TableFacts CodeGen VM Compile LoadFacts
  GenFacts GenRel Sim Spec_Code CodeFacts Spec_Height.

Lemma two_len {A B} (R : A -> B -> Prop) l k : Forall2 R l k -> List.length l = List.length k.
Proof. induction 1; cbn; congruence. Qed.
(** Heights before each instruction; the last one is after all of them. *)
Inductive track : list nat -> list instr -> nat -> Prop :=
| tk_nil : track [] [] 0
| tk_op hs ops h o a h' : track hs ops h -> takes o a <= h -> (falls o = true -> h' = after o a h) -> track (hs ++ [h]) (ops ++ [(o, a)]) h'.
Lemma track_len hs ops h : track hs ops h -> List.length hs = List.length ops.
Proof. induction 1; [reflexivity|]. rewrite !app_length. cbn. lia. Qed.
Definition at_h (ops : list instr) (hs : list nat) (t : N) (k : nat) : Prop :=
  exists pre post, ops = pre ++ post /\ t = ops_size pre /\ nth_error hs (List.length pre) = Some k.
Definition jumps_h (ops : list instr) (hs LH : list nat) : Prop :=
  forall i o a hh, nth_error ops i = Some (o, a) -> is_jump o = true -> nth_error hs i = Some hh ->
  exists l, a = [l] /\ nth_error LH (N.to_nat l) = Some (after o a hh).
Record trk (hs : list nat) (s : gst) (h : nat) (LH : list nat) : Prop := {
  tk_track : track hs (g_ops s) h;
  tk_ip : g_ip s = ops_size (g_ops s);
  tk_lab : Forall2 (at_h (g_ops s) (hs ++ [h])) (g_labels s) LH;
  tk_jmp : jumps_h (g_ops s) hs LH;
  tk_fun : Forall (fun f => at_h (g_ops s) (hs ++ [h]) (fn_start f) 0) (g_funcs s)
}.
(** In [s] the height is [h], and [LH] are the heights of the labels. *)
Definition tr (b c : option N) (s : gst) (h : nat) (LH : list nat) : Prop := (exists hs, trk hs s h LH) /\ g_brk s = b /\ g_cont s = c.
Definition okh (r : pyres gst) (Q : gst -> Prop) : Prop := match r with PyOk s => Q s | PyErr _ => True end.
Lemma okh_bind r f (Q R : gst -> Prop) : okh r Q -> (forall s, Q s -> okh (f s) R) -> okh (pbind r f) R.
Proof. destruct r; cbn; auto. Qed.

Section H.
Variables b c : option N.
Lemma tr_same s s' h LH : g_ops s' = g_ops s -> g_ip s' = g_ip s -> g_labels s' = g_labels s -> g_funcs s' = g_funcs s -> g_brk s' = g_brk s -> g_cont s' = g_cont s ->
  tr b c s h LH -> tr b c s' h LH.
Proof. intros E1 E2 E3 E4 E5 E6 [[hs [h1 h2 h3 h4 h5]] [B C]]. split; [|split; congruence]. exists hs. constructor; rewrite ?E1, ?E2, ?E3, ?E4; assumption. Qed.
Lemma at_more ops hs h x h' t k : List.length hs = List.length ops -> at_h ops (hs ++ [h]) t k -> at_h (ops ++ [x]) ((hs ++ [h]) ++ [h']) t k.
Proof.
  intros L (pre & post & -> & -> & N). exists pre, (post ++ [x]). rewrite app_assoc. split; [reflexivity|]. split; [reflexivity|].
  rewrite nth_error_app1; [exact N|]. apply nth_error_Some. congruence.
Qed.
Lemma tr_app s o a h LH h' : tr b c s h LH -> takes o a <= h -> (falls o = true -> h' = after o a h) ->
  (is_jump o = true -> exists l, a = [l] /\ nth_error LH (N.to_nat l) = Some (after o a h)) -> tr b c (append_op s o a) h' LH.
Proof.
  intros [[hs [h1 h2 h3 h4 h5]] BC] T F J. split; [|exact BC]. pose proof (track_len _ _ _ h1) as L. exists (hs ++ [h]). constructor; cbn [append_op set_code g_ops g_ip g_labels g_funcs].
  - now constructor.
  - rewrite ops_size_app, h2. cbn. lia.
  - clear - h3 L. induction h3; constructor; auto. now apply at_more.
  - intros i o' a' hh N IJ H. destruct (Nat.lt_ge_cases i (List.length (g_ops s))) as [I|I].
    + rewrite nth_error_app1 in N by exact I. rewrite nth_error_app1 in H by lia. eapply h4; eassumption.
    + rewrite nth_error_app2 in N by exact I. rewrite nth_error_app2 in H by lia. rewrite L in H. destruct (i - List.length (g_ops s)) as [|j]; [|destruct j; discriminate N].
      cbn in N, H. injection N as <- <-. injection H as <-. exact (J IJ).
  - eapply Forall_impl; [|exact h5]. intros f. now apply at_more.
Qed.
Lemma tr_op s o a h LH : tr b c s h LH -> is_jump o = false -> takes o a <= h -> falls o = true -> tr b c (append_op s o a) (after o a h) LH.
Proof. intros. eapply tr_app; eauto. congruence. Qed.
Lemma tr_to s h h' LH : tr b c s h LH -> h = h' -> tr b c s h' LH. Proof. congruence. Qed.
Lemma tr_new s s' l h LH : new_label s = (s', l) -> tr b c s h LH -> tr b c s' h (LH ++ [h]) /\ nth_error (LH ++ [h]) (N.to_nat l) = Some h.
Proof.
  intros NL [[hs [h1 h2 h3 h4 h5]] BC]. unfold new_label in NL. injection NL as <- <-. pose proof (two_len _ _ _ h3) as LL. pose proof (track_len _ _ _ h1) as L. split.
  - split; [|exact BC]. exists hs. constructor; try assumption.
    + cbn. apply Forall2_app; [exact h3|]. constructor; [|constructor]. exists (g_ops s), []. rewrite app_nil_r. split; [reflexivity|]. split; [exact h2|].
      rewrite nth_error_app2, L, Nat.sub_diag by lia. reflexivity.
    + intros i o a hh N IJ H. destruct (h4 i o a hh N IJ H) as (l & -> & K). exists l. split; [reflexivity|]. rewrite nth_error_app1; [exact K|]. apply nth_error_Some. congruence.
  - rewrite Nat2N.id, LL, nth_error_app2, Nat.sub_diag by lia. reflexivity.
Qed.
Lemma set_two {A B} (R : A -> B -> Prop) l k : Forall2 R l k -> forall i x y, nth_error k i = Some y -> R x y -> Forall2 R (list_set l i x) k.
Proof.
  induction 1 as [|a0 b0 l k H H2 IH]; intros i x y N X; [destruct i; discriminate|]. destruct i; cbn in *; constructor; auto. congruence. eauto.
Qed.
Lemma tr_patch s s' l h LH : patch_label s l = PyOk s' -> nth_error LH (N.to_nat l) = Some h -> tr b c s h LH -> tr b c s' h LH.
Proof.
  intros PL NL [[hs [h1 h2 h3 h4 h5]] BC]. unfold patch_label in PL. destruct (_ <? _)%N; [discriminate|]. apply pyok_inj in PL. subst s'. split; [|exact BC]. pose proof (track_len _ _ _ h1) as L.
  exists hs. constructor; try assumption. cbn. eapply set_two; [exact h3|exact NL|]. exists (g_ops s), []. rewrite app_nil_r. split; [reflexivity|]. split; [exact h2|].
  rewrite nth_error_app2, L, Nat.sub_diag by lia. reflexivity.
Qed.
Lemma okh_patch s l h LH : nth_error LH (N.to_nat l) = Some h -> tr b c s h LH -> okh (patch_label s l) (fun s' => tr b c s' h LH).
Proof. intros N T. destruct (patch_label s l) eqn:P; [|exact I]. eapply tr_patch; eassumption. Qed.

(** ** Small pieces *)
Lemma okh_const_index s k h LH : tr b c s h LH -> okh (let! p := const_index s k in PyOk (fst p)) (fun s' => tr b c s' h LH).
Proof. intros T. unfold const_index. destruct (table_index _ _ _) as [t j]. destruct (_ <? _)%N; [|exact I]. cbn. eapply tr_same; [..|exact T]; reflexivity. Qed.
Lemma okh_const s k h LH : tr b c s h LH -> okh (load_const s k) (fun s' => tr b c s' (S h) LH).
Proof.
  intros T. unfold load_const, const_index. destruct (table_index _ _ _) as [t j]. destruct (_ <? _)%N; [|exact I]. cbn.
  eapply tr_to; [apply tr_op with (h := h); [eapply tr_same; [..|exact T]; reflexivity|reflexivity|cbn; lia|reflexivity]|]. unfold after; cbn. lia.
Qed.
Lemma okh_name s k h LH : tr b c s h LH -> okh (load_name s k) (fun s' => tr b c s' (S h) LH).
Proof.
  intros T. unfold load_name, name_index. destruct (table_index _ _ _) as [t j]. destruct (_ <? _)%N; [|exact I]. cbn.
  eapply tr_to; [apply tr_op with (h := h); [eapply tr_same; [..|exact T]; reflexivity|reflexivity|cbn; lia|reflexivity]|]. unfold after; cbn. lia.
Qed.
Lemma okh_load C s x h LH : tr b c s h LH -> okh (load_variable C s x) (fun s' => tr b c s' (S h) LH).
Proof.
  intros T. unfold load_variable, name_index. destruct (table_index _ _ _) as [t j]. destruct (_ <? _)%N; [|exact I]. cbn [pbind].
  assert (T' : tr b c (set_names s t) h LH) by (eapply tr_same; [..|exact T]; reflexivity).
  assert (G : forall o a, o = LOAD_MODULE_DEF \/ o = GET_GLOBAL \/ o = GET_LOCAL -> tr b c (append_op (set_names s t) o a) (S h) LH).
  { intros o a Q. eapply tr_to; [apply tr_op with (h := h); [exact T'|..]|]; destruct Q as [-> |[-> | ->]]; unfold after; cbn; try reflexivity; lia. }
  destruct (negb _); [destruct (assoc _ _); [|exact I]; apply G; auto|]. destruct (sy_global x); [apply G; auto|]. destruct (assoc _ _); [|exact I]. apply G; auto.
Qed.
Lemma okh_cast C s p h LH : tr b c s (S h) LH -> okh (auto_cast C s p) (fun s' => tr b c s' (S h) LH).
Proof.
  intros T. unfold auto_cast. destruct p; [|exact T]. eapply okh_bind; [eapply okh_load, T|]. intros s' T'. cbn.
  eapply tr_to; [apply tr_op with (h := S (S h)); [exact T'|reflexivity|cbn; lia|reflexivity]|]. unfold after; cbn. lia.
Qed.
Lemma okh_set s x h LH : tr b c s (S h) LH -> okh (set_variable s x) (fun s' => tr b c s' h LH).
Proof.
  intros T. unfold set_variable, name_index. destruct (sy_global x).
  - destruct (table_index _ _ _) as [t j]. destruct (_ <? _)%N; [|exact I]. cbn.
    eapply tr_to; [apply tr_op with (h := S h); [eapply tr_same; [..|exact T]; reflexivity|reflexivity|cbn; lia|reflexivity]|]. unfold after; cbn. lia.
  - cbv zeta. destruct (assoc _ (g_locals (match _ with Some _ => _ | None => _ end))); [|exact I]. cbn.
    eapply tr_to; [apply tr_op with (h := S h); [eapply tr_same; [..|exact T]; destruct (assoc _ _); reflexivity|reflexivity|cbn; lia|reflexivity]|]. unfold after; cbn. lia.
Qed.
End H.
