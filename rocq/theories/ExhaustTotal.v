(** The number of rounds given to [compile_rows] is enough: the decision tree of
    an [iguala] is always found. *)
From Verif Require Import Base BaseFacts Dec Types Sym Exhaust.
From Coq Require Import Permutation.
Local Open Scope exh_scope.

Fixpoint csz (l : list col) : nat := match l with [] => O | c :: r => (pat_size (c_pat c) + csz r)%nat end.
Definition rsz (s : xst) (r : nat) : nat := csz (cols_of s r).
Fixpoint tot (s : xst) (l : list nat) : nat := match l with [] => O | r :: q => (rsz s r + tot s q)%nat end.
Definition wf (s : xst) : Prop := forall r c a, nth_error (x_rows s) r = Some (c, a) -> (c < List.length (x_cols s))%nat.
Definition mono (s s' : xst) : Prop := (List.length (x_rows s) <= List.length (x_rows s'))%nat /\ forall r, (r < List.length (x_rows s))%nat -> (rsz s' r <= rsz s r)%nat.
Definition valid (s : xst) (l : list nat) : Prop := Forall (fun r => r < List.length (x_rows s))%nat l.
Definition good (s s' : xst) : Prop := wf s' /\ mono s s'.

Lemma csz_app a b : csz (a ++ b) = (csz a + csz b)%nat.
Proof. induction a; cbn; lia. Qed.
Lemma csz_filter f l : (csz (filter f l) <= csz l)%nat.
Proof. induction l as [|c l IH]; cbn; [lia|]. destruct (f c); cbn; lia. Qed.
Lemma pat_pos p : (1 <= pat_size p)%nat.
Proof. destruct p; cbn; lia. Qed.
Lemma mono_refl s : mono s s.
Proof. split; auto. Qed.
Lemma mono_trans a b c : mono a b -> mono b c -> mono a c.
Proof. intros [L1 M1] [L2 M2]. split; [lia|]. intros r R. specialize (M1 r R). specialize (M2 r ltac:(lia)). lia. Qed.
Lemma valid_mono s s' l : mono s s' -> valid s l -> valid s' l.
Proof. intros [L _] V. eapply Forall_impl; [|exact V]. cbn. lia. Qed.
Lemma tot_mono s s' l : mono s s' -> valid s l -> (tot s' l <= tot s l)%nat.
Proof. intros [_ M]. induction 1 as [|r l R V IH]; cbn; [lia|]. specialize (M r R). lia. Qed.
Lemma tot_app s a b : tot s (a ++ b) = (tot s a + tot s b)%nat.
Proof. induction a; cbn; lia. Qed.
Lemma tot_perm s a b : Permutation a b -> tot s a = tot s b.
Proof. induction 1; cbn; lia. Qed.
Lemma tot_strict s s' l r : mono s s' -> valid s l -> In r l -> (rsz s' r < rsz s r)%nat -> (tot s' l < tot s l)%nat.
Proof.
  intros M. induction 1 as [|q l R V IH]; intros I D; [destruct I|]. cbn. destruct I as [->|I].
  - pose proof (tot_mono _ _ _ M V). lia.
  - specialize (IH I D). destruct M as [_ M]. specialize (M q R). lia.
Qed.
Lemma upd_length {A} (l : list A) i f : List.length (upd l i f) = List.length l.
Proof. revert i. induction l; intros [|i]; cbn; auto. Qed.
Lemma nth_upd {A} (l : list A) i j f (x : A) : nth_error l j = Some x -> nth_error (upd l i f) j = Some (if Nat.eqb i j then f x else x).
Proof. revert i j. induction l as [|y l IH]; intros i j H; [destruct j; discriminate H|]. destruct i, j; cbn in *; try congruence; auto. Qed.
Lemma nthd_upd {A} (l : list A) i j f (d : A) : (j < List.length l)%nat -> nth j (upd l i f) d = if Nat.eqb i j then f (nth j l d) else nth j l d.
Proof. revert i j. induction l as [|y l IH]; intros i j H; [cbn in H; lia|]. destruct i, j; cbn in *; auto. apply IH. lia. Qed.

(** Replacing one list of columns by one that is no larger. *)
Lemma shrink s c l' : wf s -> (csz l' <= csz (nth c (x_cols s) []))%nat -> good s (set_cols s (upd (x_cols s) c (fun _ => l'))).
Proof.
  intros W L. split.
  - intros r k a H. cbn [set_cols x_rows x_cols] in *. rewrite upd_length. eapply W; exact H.
  - split; [auto|]. intros r R. unfold rsz, cols_of. cbn [set_cols x_rows x_cols]. destruct (nth_error (x_rows s) r) as [[k a]|] eqn:E; [|lia].
    rewrite nthd_upd by (eapply W; exact E). destruct (Nat.eqb c k) eqn:Q; [apply Nat.eqb_eq in Q; subst; exact L|lia].
Qed.
Lemma shrink_at s c a r l' : wf s -> nth_error (x_rows s) r = Some (c, a) -> rsz (set_cols s (upd (x_cols s) c (fun _ => l'))) r = csz l'.
Proof. intros W E. unfold rsz, cols_of. cbn [set_cols x_rows x_cols]. rewrite E, nthd_upd, Nat.eqb_refl by (eapply W; exact E). reflexivity. Qed.

Lemma move_ok r s : wf s -> exists s', move_patterns r s = XOk tt s' /\ good s s' /\ List.length (x_rows s') = List.length (x_rows s).
Proof.
  intros W. eexists. split; [reflexivity|]. set (s1 := set_binds _ _). assert (W1 : wf s1) by exact W. split; [|cbn; rewrite upd_length; reflexivity].
  set (l' := filter _ (cols_of s r)). split.
  - intros q c a H. cbn [set_rows set_cols x_rows x_cols] in *. rewrite app_length. cbn.
    destruct (nth_error (x_rows s1) q) as [[c0 a0]|] eqn:E.
    + rewrite (nth_upd _ _ _ _ _ E) in H. destruct (Nat.eqb r q); injection H as <- <-; [cbn; lia|]. specialize (W _ _ _ E). cbn in *. lia.
    + apply nth_error_None in E. assert (q < List.length (x_rows s1))%nat; [|lia]. apply nth_error_Some in H || idtac. rewrite <- (upd_length (x_rows s1) r (fun r0 => (List.length (x_cols s), snd r0))). apply nth_error_Some. cbn in H |- *. congruence.
  - split; [cbn; rewrite upd_length; lia|]. intros q Q. unfold rsz, cols_of. cbn [set_rows set_cols x_rows x_cols].
    destruct (nth_error (x_rows s) q) as [[c0 a0]|] eqn:E; [|apply nth_error_None in E; lia].
    change (x_rows s1) with (x_rows s). rewrite (nth_upd _ _ _ _ _ E). destruct (Nat.eqb r q) eqn:RQ; cbn [fst].
    + apply Nat.eqb_eq in RQ. subst q. change (x_cols s1) with (x_cols s). rewrite app_nth2 by lia. rewrite Nat.sub_diag. cbn [nth]. unfold l', cols_of. rewrite E. apply csz_filter.
    + change (x_cols s1) with (x_cols s). rewrite app_nth1 by (eapply W; exact E). lia.
Qed.
Lemma moves_ok l : forall s, wf s -> exists u s', mapx move_patterns l s = XOk u s' /\ good s s' /\ List.length (x_rows s') = List.length (x_rows s).
Proof.
  induction l as [|r l IH]; intros s W; [exists [], s; repeat split; auto|]. destruct (move_ok r s W) as (s1 & E1 & [W1 M1] & L1). destruct (IH s1 W1) as (u & s2 & E2 & [W2 M2] & L2).
  exists (tt :: u), s2. cbn [mapx]. unfold xbind. rewrite E1, E2. split; [reflexivity|]. split; [|congruence]. split; [exact W2|]. eapply mono_trans; eassumption.
Qed.

Section Compile.
Variable teq : cty -> cty -> bool.
Variable constructors : cty -> option (list (dcons * list cty)).
Variable infinite_ok : cty -> bool.
Hypothesis teq_refl : forall t, (constructors t <> None \/ infinite_ok t = true) -> teq t t = true.

Lemma pop_less v l k rest : pop_col teq v l = Some (k, rest) -> (csz l = pat_size (c_pat k) + csz rest)%nat.
Proof.
  revert k rest. induction l as [|c l IH]; intros k rest H; [discriminate H|]. cbn in H. destruct (var_eqb teq (c_var c) v); [injection H as <- <-; reflexivity|].
  destruct (pop_col teq v l) as [[x r']|]; [|discriminate H]. injection H as <- <-. specialize (IH _ _ eq_refl). cbn. lia.
Qed.
Lemma pop_found v l : var_eqb teq v v = true -> In v (map c_var l) -> exists k rest, pop_col teq v l = Some (k, rest).
Proof.
  intros R. induction l as [|c l IH]; intros I; [destruct I|]. cbn. destruct (var_eqb teq (c_var c) v) eqn:Q; [eauto|]. destruct I as [<-|I]; [congruence|].
  destruct (IH I) as (k & rest & ->). eauto.
Qed.
Lemma remove_ok r v s : wf s -> (r < List.length (x_rows s))%nat -> exists o s', remove_column teq r v s = XOk o s' /\ good s s' /\ x_rows s' = x_rows s /\
  match o with Some k => (rsz s' r + pat_size (c_pat k) = rsz s r)%nat /\ (exists c a rest, nth_error (x_rows s) r = Some (c, a) /\ s' = set_cols s (upd (x_cols s) c (fun _ => rest)) /\ (csz rest + pat_size (c_pat k) = csz (nth c (x_cols s) []))%nat) | None => s' = s /\ forall rest k, pop_col teq v (cols_of s r) <> Some (k, rest) end.
Proof.
  intros W R. unfold remove_column. destruct (nth_error (x_rows s) r) as [[c a]|] eqn:E; [|apply nth_error_None in E; lia].
  destruct (pop_col teq v (nth c (x_cols s) [])) as [[k rest]|] eqn:P.
  - eexists _, _. split; [reflexivity|]. pose proof (pop_less _ _ _ _ P) as L. split; [apply shrink; [exact W|lia]|]. split; [reflexivity|]. split; [rewrite (shrink_at _ _ _ _ _ W E); unfold rsz, cols_of; rewrite E; lia|]. exists c, a, rest. split; [reflexivity|]. split; [reflexivity|lia].
  - eexists _, _. split; [reflexivity|]. split; [split; [exact W|apply mono_refl]|]. split; [reflexivity|]. split; [reflexivity|]. intros rest k. unfold cols_of. rewrite E, P. discriminate.
Qed.
Definition found (v : xvar) (s : xst) (r : nat) : Prop := exists k rest, pop_col teq v (cols_of s r) = Some (k, rest).
Lemma concat_upd (raw : list (dcons * list nat)) i row : exists z, Permutation (List.concat (map snd (upd raw i (fun e => (fst e, snd e ++ [row])))) ++ z) (List.concat (map snd raw) ++ [row]).
Proof.
  revert i. induction raw as [|e raw IH]; intros i; [exists [row]; reflexivity|]. destruct i; cbn.
  - exists []. rewrite app_nil_r, <- !app_assoc. apply Permutation_app_head. apply Permutation_app_comm.
  - destruct (IH i) as (z & P). exists z. rewrite <- !app_assoc. apply Permutation_app_head. exact P.
Qed.
Lemma inf_ok v : forall rows raw tested fb s, wf s -> valid s rows ->
  match split_infinite teq rows v raw tested fb s with
  | XOk (raw', fb') s' => good s s' /\ x_rows s' = x_rows s /\ (exists z, Permutation (List.concat (map snd raw') ++ fb' ++ z) (List.concat (map snd raw) ++ fb ++ rows)) /\
      (forall r0 rest, rows = r0 :: rest -> found v s r0 -> (rsz s' r0 < rsz s r0)%nat)
  | XCrash => True
  | XFuel => False
  end.
Proof.
  induction rows as [|r rows IH]; intros raw tested fb s W V; cbn [split_infinite].
  - split; [split; [exact W|apply mono_refl]|]. split; [reflexivity|]. split; [exists []; reflexivity|]. discriminate.
  - inversion V as [|x l R V']; subst. unfold xbind. destruct (remove_ok r v s W R) as (o & s1 & -> & [W1 M1] & RS & D).
    pose proof (valid_mono _ _ _ M1 V') as V1. destruct o as [k|].
    + destruct (lit_cons (c_pat k)) as [key|]; [|exact I]. cbn [xmust xret].
      assert (G : forall raw1 tested1, (exists z, Permutation (List.concat (map snd raw1) ++ z) (List.concat (map snd raw) ++ [r])) ->
        match split_infinite teq rows v raw1 tested1 fb s1 with
        | XOk (raw', fb') s' => good s s' /\ x_rows s' = x_rows s /\ (exists z, Permutation (List.concat (map snd raw') ++ fb' ++ z) (List.concat (map snd raw) ++ fb ++ r :: rows)) /\
            (forall r0 rest, r :: rows = r0 :: rest -> found v s r0 -> (rsz s' r0 < rsz s r0)%nat)
        | XCrash => True | XFuel => False end).
      { intros raw1 tested1 (z & P). specialize (IH raw1 tested1 fb s1 W1 V1). destruct (split_infinite teq rows v raw1 tested1 fb s1) as [[raw' fb'] s'| |]; [|exact I|exact IH].
        destruct IH as ([W2 M2] & RS2 & (z2 & P2) & _). split; [split; [exact W2|eapply mono_trans; eassumption]|]. split; [congruence|]. split.
        - exists (z2 ++ z). set (R' := List.concat (map snd raw')) in *. set (R1 := List.concat (map snd raw1)) in *. set (R0 := List.concat (map snd raw)) in *.
          transitivity ((R' ++ fb' ++ z2) ++ z); [rewrite <- !app_assoc; reflexivity|]. rewrite P2. transitivity ((R1 ++ z) ++ fb ++ rows).
          + rewrite <- !app_assoc. apply Permutation_app_head. rewrite (app_assoc fb rows z). apply Permutation_app_comm.
          + rewrite P, <- app_assoc. apply Permutation_app_head. cbn. apply Permutation_middle.
        - intros r0 rest Q _. injection Q as <- <-. destruct M2 as [_ M2]. specialize (M2 r ltac:(rewrite RS; exact R)). pose proof (pat_pos (c_pat k)). lia. }
      destruct (lookup_key key tested) as [[|i]|]; apply G.
      * exists []. rewrite map_app, concat_app, app_nil_r. reflexivity.
      * apply concat_upd.
      * exists []. rewrite map_app, concat_app, app_nil_r. reflexivity.
    + destruct D as [-> ND]. specialize (IH raw tested (fb ++ [r]) s W1 V1). destruct (split_infinite teq rows v raw tested (fb ++ [r]) s) as [[raw' fb'] s'| |]; [|exact I|exact IH].
      destruct IH as (G & RS2 & (z & P) & _). split; [exact G|]. split; [exact RS2|]. split; [exists z; rewrite P, <- app_assoc; reflexivity|].
      intros r0 rest Q (k & rest' & PC). injection Q as <- <-. destruct (ND _ _ PC).
Qed.

(** The rows of one case: each comes from a row of the call, and shares its columns. *)
Definition link (s : xst) (o n : nat) : Prop := exists c a a', nth_error (x_rows s) o = Some (c, a) /\ nth_error (x_rows s) n = Some (c, a').
Definition from (s : xst) (done : list nat) (l : list nat) : Prop := exists src z, Permutation (src ++ z) done /\ Forall2 (link s) src l.
Lemma link_sz s o n : link s o n -> (n < List.length (x_rows s))%nat /\ rsz s n = rsz s o.
Proof. intros (c & a & a' & E1 & E2). split; [apply nth_error_Some; congruence|]. unfold rsz, cols_of. rewrite E1, E2. reflexivity. Qed.
Lemma from_tot s done l : from s done l -> (tot s l <= tot s done)%nat /\ valid s l.
Proof.
  intros (src & z & P & FA). rewrite <- (tot_perm _ _ _ P), tot_app. clear P. induction FA as [|o n src l L FA [IH V]]; cbn; [split; [lia|constructor]|]. apply link_sz in L as [N L]. split; [lia|constructor; auto].
Qed.
Lemma link_more s s' o n : (forall r x, nth_error (x_rows s) r = Some x -> nth_error (x_rows s') r = Some x) -> link s o n -> link s' o n.
Proof. intros K (c & a & a' & E1 & E2). exists c, a, a'. auto. Qed.
Lemma from_more s s' done l : (forall r x, nth_error (x_rows s) r = Some x -> nth_error (x_rows s') r = Some x) -> from s done l -> from s' done l.
Proof. intros K (src & z & P & FA). exists src, z. split; [exact P|]. clear P. induction FA; constructor; auto. eapply link_more; eassumption. Qed.
Lemma from_skip s done l r : from s done l -> from s (done ++ [r]) l.
Proof. intros (src & z & P & FA). exists src, (z ++ [r]). split; [rewrite app_assoc, P; reflexivity|exact FA]. Qed.
Lemma from_add s done l r n : from s done l -> link s r n -> from s (done ++ [r]) (l ++ [n]).
Proof.
  intros (src & z & P & FA) L. exists (src ++ [r]), z. split; [|apply Forall2_app; auto]. rewrite <- P, <- !app_assoc. apply Permutation_app_head. apply Permutation_app_comm.
Qed.
Lemma zip_size vs ps : (csz (zip_cols vs ps) <= fold_right (fun p n => pat_size p + n) O ps)%nat.
Proof. revert ps. induction vs as [|v vs IH]; intros [|p ps]; cbn; try lia. specialize (IH ps). lia. Qed.
Lemma upd_forall {A} (P Q : A -> Prop) f l i : (forall x, P x -> Q x) -> (forall x, P x -> Q (f x)) -> Forall P l -> Forall Q (upd l i f).
Proof. intros A1 A2 FA. revert i. induction FA; intros [|i]; cbn; constructor; auto. eapply Forall_impl; eassumption. Qed.

Lemma con_ok v : forall rows done cases s, wf s -> valid s rows -> Forall (fun e => from s done (snd e)) cases ->
  match split_constructors teq rows v cases s with
  | XOk cases' s' => good s s' /\ Forall (fun e => from s' (done ++ rows) (snd e)) cases' /\ (forall r x, nth_error (x_rows s) r = Some x -> nth_error (x_rows s') r = Some x) /\
      (forall r0 rest, rows = r0 :: rest -> found v s r0 -> (rsz s' r0 < rsz s r0)%nat)
  | XCrash => True
  | XFuel => False
  end.
Proof.
  induction rows as [|r rows IH]; intros done cases s W V FA; cbn [split_constructors].
  - rewrite app_nil_r. split; [split; [exact W|apply mono_refl]|]. split; [exact FA|]. split; [auto|discriminate].
  - inversion V as [|x l R V']; subst. unfold xbind at 1. destruct (remove_ok r v s W R) as (o & s1 & -> & [W1 M1] & RS & D).
    assert (G : forall cases1 s2, good s s2 -> (forall q x, nth_error (x_rows s) q = Some x -> nth_error (x_rows s2) q = Some x) -> Forall (fun e => from s2 (done ++ [r]) (snd e)) cases1 ->
        (found v s r -> (rsz s2 r < rsz s r)%nat) ->
        match split_constructors teq rows v cases1 s2 with
        | XOk cases' s' => good s s' /\ Forall (fun e => from s' (done ++ r :: rows) (snd e)) cases' /\ (forall r x, nth_error (x_rows s) r = Some x -> nth_error (x_rows s') r = Some x) /\
            (forall r0 rest, r :: rows = r0 :: rest -> found v s r0 -> (rsz s' r0 < rsz s r0)%nat)
        | XCrash => True | XFuel => False end).
    { intros cases1 s2 [W2 M02] K F1 ST. specialize (IH (done ++ [r]) cases1 s2 W2 (valid_mono _ _ _ M02 V') F1).
      destruct (split_constructors teq rows v cases1 s2) as [cases' s'| |]; [|exact I|exact IH]. destruct IH as ([W3 M3] & F3 & K3 & _).
      split; [split; [exact W3|eapply mono_trans; eassumption]|]. split; [rewrite <- app_assoc in F3; exact F3|]. split; [auto|].
      intros r0 rest Q FD. injection Q as <- <-. specialize (ST FD). destruct M02 as [L02 _]. destruct M3 as [_ M3]. specialize (M3 r ltac:(lia)). lia. }
    assert (KS : forall q x, nth_error (x_rows s) q = Some x -> nth_error (x_rows s1) q = Some x) by (rewrite RS; auto).
    destruct o as [k|].
    + pose proof (pat_pos (c_pat k)) as PP. destruct D as [D (c0 & a0 & rest0 & E0 & S1 & SZ0)].
      assert (SKIP : match split_constructors teq rows v cases s1 with
        | XOk cases' s' => good s s' /\ Forall (fun e => from s' (done ++ r :: rows) (snd e)) cases' /\ (forall r x, nth_error (x_rows s) r = Some x -> nth_error (x_rows s') r = Some x) /\
            (forall r0 rest, r :: rows = r0 :: rest -> found v s r0 -> (rsz s' r0 < rsz s r0)%nat)
        | XCrash => True | XFuel => False end).
      { apply G; [split; [exact W1|exact M1]|exact KS| |lia]. eapply Forall_impl; [|exact FA]. intros e FE. apply from_skip. eapply from_more; [exact KS|exact FE]. }
      destruct (c_pat k) as [?|?|?|tag args] eqn:CP; try exact SKIP. clear SKIP. unfold xbind. destruct (nth_error cases tag) as [e|]; [|exact I]. cbn [xmust xret].
      rewrite RS, E0. set (zc := zip_cols (snd (fst e)) args). pose proof (zip_size (snd (fst e)) args) as ZS. fold zc in ZS. cbn [pat_size] in SZ0.
      set (s2 := set_rows _ _). pose proof (W _ _ _ E0) as LC.
      assert (RS2 : x_rows s2 = x_rows s ++ [(c0, a0)]) by (unfold s2; cbn; rewrite RS; reflexivity).
      assert (CS2 : x_cols s2 = upd (upd (x_cols s) c0 (fun _ => rest0)) c0 (fun l => l ++ zc)) by (unfold s2; rewrite S1; reflexivity).
      assert (NC : forall j, (j < List.length (x_cols s))%nat -> nth j (x_cols s2) [] = if Nat.eqb c0 j then rest0 ++ zc else nth j (x_cols s) []).
      { intros j J. rewrite CS2, nthd_upd by (rewrite upd_length; exact J). rewrite nthd_upd by exact J. destruct (Nat.eqb c0 j); reflexivity. }
      assert (K2 : forall q x, nth_error (x_rows s) q = Some x -> nth_error (x_rows s2) q = Some x).
      { intros q x H. rewrite RS2. rewrite nth_error_app1; [exact H|]. apply nth_error_Some. congruence. }
      assert (SZ2 : forall q, (q < List.length (x_rows s))%nat -> (rsz s2 q <= rsz s q)%nat /\ (q = r -> rsz s2 q < rsz s q)%nat).
      { intros q Q. unfold rsz, cols_of. destruct (nth_error (x_rows s) q) as [[c a]|] eqn:E; [|apply nth_error_None in E; lia]. rewrite (K2 _ _ E), NC by (eapply W; exact E).
        destruct (Nat.eqb c0 c) eqn:CC.
        - apply Nat.eqb_eq in CC. subst c. rewrite csz_app. lia.
        - split; [lia|]. intros ->. rewrite E0 in E. injection E as <- <-. rewrite Nat.eqb_refl in CC. discriminate CC. }
      apply G.
      * split.
        -- intros q c a H. rewrite CS2, !upd_length. rewrite RS2 in H. destruct (Nat.lt_ge_cases q (List.length (x_rows s))) as [Q|Q].
           ++ rewrite nth_error_app1 in H by exact Q. eapply W; exact H.
           ++ rewrite nth_error_app2 in H by exact Q. destruct (q - List.length (x_rows s))%nat as [|j]; [injection H as <- <-; exact LC|destruct j; discriminate H].
        -- split; [rewrite RS2, app_length; lia|]. intros q Q. apply SZ2. exact Q.
      * exact K2.
      * eapply upd_forall; [| |exact FA]; cbn [snd]; intros e1 FE.
        -- apply from_skip. eapply from_more; [exact K2|exact FE].
        -- apply from_add; [eapply from_more; [exact K2|exact FE]|]. exists c0, a0, a0. split; [apply K2; exact E0|]. rewrite RS2, nth_error_app2, Nat.sub_diag by lia. reflexivity.
      * intros _. apply SZ2; auto.
    + destruct D as [-> ND]. apply G; [split; assumption|exact KS| |].
      * apply Forall_map. cbn [snd]. eapply Forall_impl; [|exact FA]. intros e FE. cbn [snd]. apply from_add; [exact FE|].
        destruct (nth_error (x_rows s) r) as [[c a]|] eqn:E; [|apply nth_error_None in E; lia]. exists c, a, a. auto.
      * intros (k & rest & PC). destruct (ND _ _ PC).
Qed.

Definition safe {A} (s : xst) (m : X A) (s1 : xst) : Prop := match m s1 with XOk _ s' => good s s' | XCrash => True | XFuel => False end.
Lemma mapx_safe {A B} (f : A -> X B) s l : (forall e s1, In e l -> good s s1 -> safe s (f e) s1) -> forall s1, good s s1 -> safe s (mapx f l) s1.
Proof.
  induction l as [|e l IH]; intros H s1 G; [exact G|]. unfold safe. cbn [mapx]. unfold xbind. pose proof (H e s1 (or_introl eq_refl) G) as H1. unfold safe in H1.
  destruct (f e s1) as [y s2| |]; [|exact I|exact H1]. specialize (IH (fun e0 s0 I0 => H e0 s0 (or_intror I0)) s2 H1). unfold safe in IH. destruct (mapx f l s2); auto.
Qed.
Lemma news_same l : forall s, exists vs s', mapx new_variable l s = XOk vs s' /\ x_rows s' = x_rows s /\ x_cols s' = x_cols s.
Proof.
  induction l as [|t l IH]; intros s; [exists [], s; auto|]. cbn [mapx]. unfold xbind.
  destruct (new_variable t s) as [v s1| |] eqn:E1; try discriminate E1. assert (A1 : x_rows s1 = x_rows s /\ x_cols s1 = x_cols s) by (injection E1 as _ <-; auto).
  destruct (IH s1) as (vs & s' & -> & A & B). eexists _, s'. split; [reflexivity|]. destruct A1. split; congruence.
Qed.
Lemma cases_same (ks : list (dcons * list cty)) : forall s, exists cases s', mapx (fun k => vs <- mapx new_variable (snd k) ;; xret (fst k, vs, @nil nat)) ks s = XOk cases s' /\
  x_rows s' = x_rows s /\ x_cols s' = x_cols s /\ Forall (fun e => snd e = []) cases.
Proof.
  set (f := fun k : dcons * list cty => vs <- mapx new_variable (snd k) ;; xret (fst k, vs, @nil nat)).
  induction ks as [|k ks IH]; intros s; [exists [], s; auto|]. destruct (news_same (snd k) s) as (vs & s1 & E & A & B).
  assert (F1 : f k s = XOk (fst k, vs, []) s1) by (unfold f, xbind; rewrite E; reflexivity).
  destruct (IH s1) as (cases & s2 & E2 & A2 & B2 & F). cbn [mapx]. unfold xbind. rewrite F1, E2. eexists _, s2. split; [reflexivity|]. split; [congruence|]. split; [congruence|constructor; auto].
Qed.
Lemma same_good s s' : wf s -> x_rows s' = x_rows s -> x_cols s' = x_cols s -> good s s'.
Proof.
  intros W A B. split; [intros r c a H; rewrite B; rewrite A in H; eapply W; exact H|]. split; [rewrite A; lia|]. intros r R. unfold rsz, cols_of. rewrite A, B. lia.
Qed.
Lemma fold_in (f : xvar -> xvar -> bool) l : forall v, In (fold_left (fun best (c : col) => if f best (c_var c) then c_var c else best) l v) (v :: map c_var l).
Proof. induction l as [|c l IH]; intros v; cbn; [auto|]. specialize (IH (if f v (c_var c) then c_var c else v)). destruct IH as [IH|IH]; [|auto]. rewrite <- IH. destruct (f v (c_var c)); auto. Qed.

Lemma compile_ok : forall fuel rows s, wf s -> valid s rows -> (tot s rows + 2 <= fuel)%nat -> safe s (compile_rows teq constructors infinite_ok fuel rows) s.
Proof.
  induction fuel as [|fuel IH]; intros rows s W V LE; [lia|]. unfold safe. cbn [compile_rows]. destruct rows as [|r0 rest].
  - unfold xbind, mark_missing. cbn. apply same_good; auto.
  - unfold xbind at 1. destruct (moves_ok (r0 :: rest) s W) as (u & s1 & -> & [W1 M1] & LR). pose proof (valid_mono _ _ _ M1 V) as V1. pose proof (tot_mono _ _ _ M1 V) as T1.
    set (rows := r0 :: rest) in *. assert (HD : In r0 rows) by (left; reflexivity). unfold xbind at 1, xget at 1. destruct (cols_of s1 r0) as [|c0 cs0] eqn:CO.
    + unfold xbind, xget, mark_reached. cbn. destruct (same_good s1 (mkXst (x_cols s1) (x_rows s1) (x_binds s1) (x_dict s1) (x_new s1) (x_next s1) (x_reach s1 ++ [arm_of s1 r0]) (x_missing s1)) W1 eq_refl eq_refl) as [W2 M2].
      split; [exact W2|eapply mono_trans; eassumption].
    + unfold xbind at 1, branch_variable. cbn [rows]. rewrite CO.
      set (v := fold_left _ cs0 (c_var c0)).
      assert (IV : In v (map c_var (cols_of s1 r0))) by (rewrite CO; apply (fold_in (fun a b => (uses s1 (r0 :: rest) (xv_id a) <? uses s1 (r0 :: rest) (xv_id b))%nat))).
      clearbody v. fold rows.
      assert (FD : constructors (xv_ty v) <> None \/ infinite_ok (xv_ty v) = true -> found v s1 r0).
      { intros H. destruct (pop_found v (cols_of s1 r0)) as (k & r & E); [unfold var_eqb; rewrite text_eqb_refl, (teq_refl _ H); reflexivity|exact IV|]. exists k, r. exact E. }
      destruct (constructors (xv_ty v)) as [ks|] eqn:CT.
      * unfold xbind at 1. destruct (cases_same ks s1) as (cases & s2 & -> & A2 & B2 & F2). destruct (same_good s1 s2 W1 A2 B2) as [W2 M2]. pose proof (valid_mono _ _ _ M2 V1) as V2.
        unfold xbind at 1. assert (F0 : Forall (fun e => from s2 [] (snd e)) cases) by (eapply Forall_impl; [|exact F2]; intros e ->; exists [], []; split; [reflexivity|constructor]).
        pose proof (con_ok v rows [] cases s2 W2 V2 F0) as C. destruct (split_constructors teq rows v cases s2) as [cases' s3| |]; [|exact I|exact C]. destruct C as ([W3 M3] & F3 & _ & ST). cbn [app] in F3.
        assert (FD2 : found v s2 r0) by (destruct FD as (k & r & E); [left; congruence|]; exists k, r; unfold cols_of in *; rewrite A2, B2; exact E).
        pose proof (tot_strict _ _ _ _ M3 V2 HD (ST _ _ eq_refl FD2)) as T3. pose proof (tot_mono _ _ _ M2 V1) as T2.
        pose proof (mono_trans _ _ _ M1 (mono_trans _ _ _ M2 M3)) as M03.
        assert (MP : safe s3 (mapx (fun e => t <- compile_rows teq constructors infinite_ok fuel (snd e) ;; xret (fst (fst e), map xv_id (snd (fst e)), t)) cases') s3).
        { apply mapx_safe; [|split; [exact W3|apply mono_refl]]. intros e s4 IE [W4 M4]. rewrite Forall_forall in F3. destruct (from_tot _ _ _ (F3 e IE)) as [TE VE]. unfold safe, xbind.
          pose proof (tot_mono _ _ _ M4 VE) as T4. specialize (IH (snd e) s4 W4 (valid_mono _ _ _ M4 VE) ltac:(lia)). unfold safe in IH.
          destruct (compile_rows teq constructors infinite_ok fuel (snd e) s4) as [t s5| |]; [|exact I|exact IH]. destruct IH as [W5 M5]. split; [exact W5|eapply mono_trans; eassumption]. }
        unfold safe in MP. unfold xbind at 1. destruct (mapx _ cases' s3) as [cs s4| |]; [|exact I|exact MP]. destruct MP as [W4 M4]. split; [exact W4|eapply mono_trans; eassumption].
      * destruct (infinite_ok (xv_ty v)) eqn:IO; [|exact I]. unfold xbind at 1. pose proof (inf_ok v rows [] [] [] s1 W1 V1) as C.
        destruct (split_infinite teq rows v [] [] [] s1) as [[raw fb] s2| |]; [|exact I|exact C]. destruct C as ([W2 M2] & RS & (z & P) & ST). cbn [map List.concat app] in P.
        pose proof (tot_strict _ _ _ _ M2 V1 HD (ST _ _ eq_refl (FD (or_intror eq_refl)))) as T2.
        assert (VP : valid s2 (List.concat (map snd raw) ++ fb ++ z)) by (eapply Permutation_Forall; [symmetry; exact P|]; eapply valid_mono; eassumption).
        apply Forall_app in VP as [VR VP]. apply Forall_app in VP as [VF _].
        assert (TT : (tot s2 (List.concat (map snd raw)) + tot s2 fb <= tot s2 rows)%nat) by (rewrite <- (tot_perm _ _ _ P), !tot_app; lia).
        assert (SUB : forall e, In e raw -> valid s2 (snd e) /\ (tot s2 (snd e) <= tot s2 (List.concat (map snd raw)))%nat).
        { intros e IE. clear - IE VR. induction raw as [|e1 raw IH]; [destruct IE|]. cbn [map List.concat] in *. apply Forall_app in VR as [VA VB]. rewrite tot_app.
          destruct IE as [->|IE]; [split; [exact VA|lia]|]. destruct (IH VB IE). split; [assumption|lia]. }
        assert (CALL : forall l s3, good s2 s3 -> valid s2 l -> (tot s2 l <= tot s2 rows)%nat -> safe s2 (compile_rows teq constructors infinite_ok fuel l) s3).
        { intros l s3 [W3 M3] VL TL. pose proof (tot_mono _ _ _ M3 VL). specialize (IH l s3 W3 (valid_mono _ _ _ M3 VL) ltac:(lia)). unfold safe in *.
          destruct (compile_rows teq constructors infinite_ok fuel l s3) as [t s4| |]; auto. destruct IH as [W4 M4]. split; [exact W4|eapply mono_trans; eassumption]. }
        assert (MP : safe s2 (mapx (fun e => t <- compile_rows teq constructors infinite_ok fuel (snd e ++ fb) ;; xret (fst e, @nil nat, t)) raw) s2).
        { apply mapx_safe; [|split; [exact W2|apply mono_refl]]. intros e s3 IE G3. destruct (SUB e IE) as [VE TE]. unfold safe, xbind.
          assert (C : safe s2 (compile_rows teq constructors infinite_ok fuel (snd e ++ fb)) s3) by (apply CALL; [exact G3|apply Forall_app; auto|rewrite tot_app; lia]).
          unfold safe in C. destruct (compile_rows teq constructors infinite_ok fuel (snd e ++ fb) s3); auto. }
        unfold safe in MP. unfold xbind at 1. destruct (mapx _ raw s2) as [cs s3| |]; [|exact I|exact MP].
        assert (C : safe s2 (compile_rows teq constructors infinite_ok fuel fb) s3) by (apply CALL; [exact MP|exact VF|lia]). unfold safe in C. unfold xbind.
        destruct (compile_rows teq constructors infinite_ok fuel fb s3) as [f s4| |]; auto. destruct C as [W4 M4]. split; [exact W4|]. eapply mono_trans; [exact M1|]. eapply mono_trans; eassumption.
Qed.

Theorem compile_total target arms dict next : compile_iguala teq constructors infinite_ok target arms dict next <> XFuel.
Proof.
  unfold compile_iguala. set (n := List.length arms). set (s := mkXst _ _ _ _ _ _ _ _).
  assert (ROW : forall i, (i < n)%nat -> nth_error (x_rows s) i = Some (i, i)).
  { intros i I. cbn. apply (map_nth_error (fun i => (i, i))). rewrite nth_error_nth' with (d := O) by (rewrite seq_length; exact I). rewrite seq_nth by exact I. reflexivity. }
  assert (W : wf s).
  { intros r c a H. cbn in H |- *. rewrite map_length. assert (r < n)%nat.
    { assert (Q : nth_error (x_rows s) r <> None) by (cbn; congruence). apply nth_error_Some in Q. cbn in Q. rewrite map_length, seq_length in Q. exact Q. }
    change (nth_error (x_rows s) r = Some (c, a)) in H. rewrite ROW in H by assumption. injection H as <- <-. assumption. }
  assert (V : valid s (seq 0 n)).
  { apply Forall_forall. intros i I. apply in_seq in I. cbn. rewrite map_length, seq_length. lia. }
  assert (T : tot s (seq 0 n) = fold_right (fun p n => pat_size p + n)%nat O arms).
  { assert (G : forall l pre, arms = pre ++ l -> tot s (seq (List.length pre) (List.length l)) = fold_right (fun p n => pat_size p + n)%nat O l).
    { induction l as [|p l IHl]; intros pre K; [reflexivity|]. cbn [List.length seq tot fold_right]. specialize (IHl (pre ++ [p]) ltac:(rewrite <- app_assoc; exact K)).
      rewrite app_length, Nat.add_1_r in IHl. rewrite IHl. f_equal. unfold rsz, cols_of. assert (L : (List.length pre < n)%nat) by (unfold n; rewrite K, app_length; cbn; lia).
      rewrite ROW by exact L. cbn [x_cols s]. rewrite nth_indep with (d' := [mkCol target p]) by (rewrite map_length; exact L). rewrite (map_nth (fun p => [mkCol target p])).
      rewrite K, app_nth2, Nat.sub_diag by lia. cbn. lia. }
    apply (G arms []). reflexivity. }
  pose proof (compile_ok (2 + fold_right (fun p n => pat_size p + n)%nat O arms) (seq 0 n) s W V ltac:(lia)) as C. unfold safe in C.
  destruct (compile_rows _ _ _ _ _ s); [discriminate|discriminate|destruct C].
Qed.
End Compile.
