(** C35 is false of programs with [iguala]: a whole source text, read by the model
    from its characters on. *)
From Verif Require Import Base Bson Opcode Value VM Front Ex_Front.
From Coq Require Import String.
Local Open Scope string_scope.

(** The stack pointer each time the main module comes to the instruction [ip]. *)
Fixpoint pointers (P : program) (ip : N) (n : nat) (s : state) : list Z :=
  match n with
  | O => []
  | Datatypes.S n =>
      let here := match s_ctx s, s_frames s with None, [f] => if (f_ip f =? ip)%N then [s_sp s] else [] | _, _ => [] end in
      here ++ match step e1 P s with SNext s' => pointers P ip n s' | _ => [] end
  end.
Definition pointers_at (src : list String.string) (ip : N) : option (list Z) :=
  match front (env_of [(txt "/repo/main.ama", lines src)]) alphabet 20 main_file with
  | FProgram P =>
      match run_imports e1 P 4000 (initial_state P []) 0 (p_imports P) with
      | Finished s => match start_module e1 s None (p_main P) with Some s0 => Some (pointers P ip 4000 s0) | None => None end
      | _ => None
      end
  | _ => None
  end.
Definition src_loop (r : String.string) : list String.string :=
  ["uniao R"; " Sim,"; " Num(int)"; "fim";
   r; "i: int = 0";
   "enquanto i < 3 faca";
   " mostra iguala r"; "  R::Sim => 2,"; "  R::Num(k) => k"; " fim";
   " i = i + 1";
   "fim"].
(** At the condition of the loop (instruction 14) the stack is higher by one in
    each round: the arm of a variant without parameters loads the value under
    test and leaves it there. *)
Theorem C35_iguala_refuted : pointers_at (src_loop "r: R = R::Sim") 14 = Some [255; 256; 257; 258]%Z.
Proof. vm_compute. reflexivity. Qed.
Print Assumptions C35_iguala_refuted.
(** With the other variant (and one instruction more before the loop) it stays. *)
Example C35_iguala_near : pointers_at (src_loop "r: R = R::Num(5)") 17 = Some [255; 255; 255; 255]%Z.
Proof. vm_compute. reflexivity. Qed.
Example C35_iguala_runs : see1 (src_loop "r: R = R::Sim") = Prints (says ["2"; "2"; "2"]) /\ see1 (src_loop "r: R = R::Num(5)") = Prints (says ["5"; "5"; "5"]).
Proof. vm_compute. auto. Qed.
