(** Vocabulary for the properties of the virtual machine: what is at an
    address, and what it means that executing one instruction pushes a value,
    raises an error or has undefined behaviour. *)
From Coq Require Import ZArith List Bool String.
From Verif Require Import Base F32 Instr InstrSpec Program VM.
Import ListNotations.
Open Scope Z_scope.

(** The code of [prog] has the encoding of instruction [x] at address [a].
    (The machine refuses to run programs of fewer than five bytes.) *)
Definition at_ins (prog : program_t) (a : Z) (x : ins) : Prop :=
  4 < zlen (p_code prog) /\ 0 <= a /\ ins_wf x /\
  exists b, emit x = Ok b /\ zfirstn (zlen b) (zskipn a (p_code prog)) = b.

(** Length of an encoded instruction: an opcode byte and 32-bit operands. *)
Definition ins_len (i : instr) : Z := 1 + 4 * operands i.

Section Spec.
  Context {P H : Type}.
  Notation mst := (mst P H).
  Notation thread := (thread P).

  Definition pc (s : mst) : Z := t_pc (m_cur s).
  Definition stack (s : mst) : list P := t_stk (m_cur s).
  Definition frames (s : mst) : list frame := t_frs (m_cur s).
  Definition quiet (s : mst) : Prop := t_bps (m_cur s) = [].

  (** [s] with a new running thread *)
  Definition with_cur (s : mst) (t : thread) : mst :=
    Mst (m_heap s) (m_glob s) (m_world s) (m_pre s) t (m_post s).

  (** [s] after one instruction that left the pc at [pc'], the stack [stk'] and
      the heap [h'] and changed nothing else; one cycle has been counted. *)
  Definition after (s : mst) (pc' : Z) (stk' : list P) (h' : H) : mst :=
    let t := m_cur s in
    Mst h' (m_glob s) (m_world s) (m_pre s)
      (Thread pc' stk' (t_frs t) (t_err t) (t_fin t) (t_hal t)
              (to_u32 (t_cyc t + 1)) (t_waits t) (t_last t) (t_bps t))
      (m_post s).

  (** The same, but the thread has raised [e] and is finished. *)
  Definition failed (s : mst) (pc' : Z) (stk' : list P) (e : terr) : mst :=
    let t := m_cur s in
    Mst (m_heap s) (m_glob s) (m_world s) (m_pre s)
      (Thread pc' stk' (t_frs t) (Some e) true (t_hal t)
              (to_u32 (t_cyc t + 1)) (t_waits t) (t_last t) (t_bps t))
      (m_post s).
End Spec.

(** Executing the one-byte instruction [i] with left operand [l] and right
    operand [r] (the top of the stack) replaces both by one new value [c], on
    any heap and in any state. *)
Definition binary_state {P H} (ops : hops P H) (prog : program_t) (s : mst P H)
           (i : instr) (l r : pv) (rest : list P) : Prop :=
  at_ins prog (pc s) (I0 i) /\ quiet s /\
  exists lp rp lw rw,
    stack s = rp :: lp :: rest /\
    h_view ops (m_heap s) lp = Ok lw /\ plain lw = l /\
    h_view ops (m_heap s) rp = Ok rw /\ plain rw = r.

Definition pushes2 (i : instr) (l r : pv) (c : scell) : Prop :=
  forall P H (ops : hops P H) prog s rest h p,
    binary_state ops prog s i l r rest ->
    h_newS ops (m_heap s) c = Ok (h, p) ->
    step_imp ops prog s = Ok (tt, after s (pc s + 1) (p :: rest) h).
Definition raises2 (i : instr) (l r : pv) (e : terr) : Prop :=
  forall P H (ops : hops P H) prog s rest,
    binary_state ops prog s i l r rest ->
    step_imp ops prog s = Ok (tt, failed s (pc s + 1) rest e).
Definition undefined2 (i : instr) (l r : pv) (x : stuck) : Prop :=
  forall P H (ops : hops P H) prog s rest,
    binary_state ops prog s i l r rest ->
    step_imp ops prog s = Stuck x.

(** Likewise for instructions with one operand on the stack. *)
Definition unary_state {P H} (ops : hops P H) (prog : program_t) (s : mst P H)
           (i : instr) (v : pv) (rest : list P) : Prop :=
  at_ins prog (pc s) (I0 i) /\ quiet s /\
  exists p w, stack s = p :: rest /\ h_view ops (m_heap s) p = Ok w /\ plain w = v.
Definition pushes1 (i : instr) (v : pv) (c : scell) : Prop :=
  forall P H (ops : hops P H) prog s rest h p,
    unary_state ops prog s i v rest ->
    h_newS ops (m_heap s) c = Ok (h, p) ->
    step_imp ops prog s = Ok (tt, after s (pc s + 1) (p :: rest) h).
Definition raises1 (i : instr) (v : pv) (e : terr) : Prop :=
  forall P H (ops : hops P H) prog s rest,
    unary_state ops prog s i v rest ->
    step_imp ops prog s = Ok (tt, failed s (pc s + 1) rest e).
Definition undefined1 (i : instr) (v : pv) (x : stuck) : Prop :=
  forall P H (ops : hops P H) prog s rest,
    unary_state ops prog s i v rest ->
    step_imp ops prog s = Stuck x.

Definition binary_instr (i : instr) : Prop :=
  In i [INS_ADD; INS_SUB; INS_MUL; INS_DIV; INS_MOD; INS_AND; INS_OR;
        INS_LT; INS_GT; INS_LEQ; INS_GEQ; INS_EQ].

Notation PInt z := (PS (SInt z)).
Notation PFlt f := (PS (SFlt f)).
Notation PStr s := (PS (SStr s)).
Definition bit (P : Prop) (d : {P} + {~ P}) : scell := SInt (if d then 1 else 0).

(** The text of a value in a concatenation: decimal for integers, the bytes of
    a string, and so on; arrays and syscalls have none. *)
Inductive has_text : pv -> bytes -> Prop :=
| text_int : forall z, has_text (PInt z) (dec z)
| text_flt : forall f, has_text (PFlt f) (f_text f)
| text_str : forall s, Forall (fun c => c <> 0) s -> has_text (PStr s) s
| text_none : has_text PNone (bs "none")
| text_fun : forall a, has_text (PS (SFun a)) (bs "function@" ++ dec a).

(** Values that count as false. *)
Inductive falsy : pv -> Prop :=
| falsy_none : falsy PNone
| falsy_int : falsy (PInt 0)
| falsy_flt : forall sign, falsy (PFlt (Floats.SpecFloat.S754_zero sign))
| falsy_str : falsy (PStr []).

(** What each builtin and driver function is called in a script. *)
Definition names_of (f : sysfn) : list bytes :=
  match f with
  | F_abs => [bs "abs"] | F_min => [bs "min"] | F_max => [bs "max"] | F_bitand => [bs "bitand"]
  | F_sin => [bs "sin"] | F_cos => [bs "cos"] | F_tan => [bs "tan"] | F_len => [bs "len"]
  | F_chr => [bs "chr"] | F_round => [bs "round"] | F_ceil => [bs "ceil"]
  | F_floor => [bs "floor"] | F_sqrt => [bs "sqrt"] | F_new_thread => [bs "new_thread"]
  | F_wait => [bs "wait"] | F_new_array => [bs "new_array"] | F_rand => [bs "rand"]
  | F_getc => [bs "getc"] | F_putc => [bs "putc"] | F_gets => [bs "gets"]
  | F_puts => [bs "puts"; bs "print"]
  | F_host name _ => [name] | F_sleep => [bs "sleep"]
  end.
