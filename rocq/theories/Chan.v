(** Chan: the lexer goroutine, its channel and the parser's read loop
    (lexer.go:48-59 NewLexer, 194-222 emit, emitError, Lex; parser.go:13-16; utils.go:28-38 ConsumeChan). *)
From Verif Require Import Base Lexer.

(** [c_todo]: tokens the lexer goroutine has still to send; [c_buf]: channel contents, oldest first;
    [c_closed]: close(q) was called; [c_got]: values ConsumeChan collected; [c_done]: it returned. *)
Record chan_state := mkChan {
  c_todo : list tok;
  c_buf : list tok;
  c_closed : bool;
  c_got : list tok;
  c_done : bool }.

Definition chan_init (ts : list tok) : chan_state := mkChan ts [] false [] false.

(** One step of either goroutine.  [cap] is the channel capacity (10 in lexer.go:49). *)
Inductive chan_step (cap : nat) : chan_state -> chan_state -> Prop :=
| step_send t ts buf got :
    length buf < cap ->
    chan_step cap (mkChan (t :: ts) buf false got false) (mkChan ts (buf ++ [t]) false got false)
| step_close buf got :
    chan_step cap (mkChan [] buf false got false) (mkChan [] buf true got false)
| step_recv ts t buf cl got :
    chan_step cap (mkChan ts (t :: buf) cl got false) (mkChan ts buf cl (got ++ [t]) false)
| step_end got :
    chan_step cap (mkChan [] [] true got false) (mkChan [] [] true got true).

Inductive chan_steps (cap : nat) : chan_state -> chan_state -> Prop :=
| steps_refl s : chan_steps cap s s
| steps_cons s1 s2 s3 : chan_step cap s1 s2 -> chan_steps cap s2 s3 -> chan_steps cap s1 s3.
