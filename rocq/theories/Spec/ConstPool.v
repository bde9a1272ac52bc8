(** Histories of constant additions, for C04. *)
From Verif.Model Require Export Assembler.

(** [pool_history a h a']: starting from assembler [a], constants are added one after the other,
    interleaved with arbitrary emissions that leave the pool alone, ending in [a'];
    [h] lists the constants added with the index each addition returned. *)
Inductive pool_history : assembler -> list (const * byte) -> assembler -> Prop :=
| ph_start a : pool_history a [] a
| ph_emit a h a1 a2 :
    pool_history a h a1 -> asm_consts a2 = asm_consts a1 -> pool_history a h a2
| ph_add a h a1 c i a2 :
    pool_history a h a1 -> make_constant c a1 = Ok (i, a2) -> pool_history a (h ++ [(c, i)]) a2.
