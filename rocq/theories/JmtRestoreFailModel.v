(** Model of a restoration into a store whose writes can fail:
    /repo/jmt/src/restore.rs 311-341.

    A write that fails returns an error and leaves the store as it was: the
    batch is said to be written atomically (/repo/jmt/src/writer.rs 23, on
    [NodeBatch]).  The rest is as in JmtRestoreModel.v. *)
From Verif Require Import Base JmtModel JmtRestoreModel JmtRestoreRunSpec.
Local Open Scope N_scope.

(** What the caller gets.  In the code the last two are both an
    [anyhow::Error]. *)
Inductive answer := Accepted | Refused (e : jerr) | WriteFailed.
Inductive wres := WDone (st : rstate) (a : answer) | WPanic.

(** restore.rs 311-341, [add_chunk_impl]: [works] says whether the write of
    restore.rs 337 would succeed.  The [?] there leaves the function before
    the frozen nodes are cleared (restore.rs 338). *)
Definition add_chunk_io (sha hv : bytes -> bytes) (works : bool) (st : rstate) (chunk : list (bytes * bytes)) (right : list bytes) : wres :=
  match chunk with
  | [] => WDone st (Refused EmptyChunk)
  | _ =>
      match add_pairs sha hv st chunk with
      | Ok (st, false) => WDone st (Refused KeysNotIncreasing)
      | Ok (st, true) =>
          match rs_verify sha st right with
          | Ok _ =>
              if works then
                match write_node_batch (rs_store st) (rs_frozen st) (rs_values st) with
                | Ok s => WDone (RState s (rs_ver st) (rs_partial st) ∅ ∅ (rs_prev st) (rs_num st) (rs_root st)) Accepted
                | Err e => WDone st (Refused e)
                | _ => WPanic
                end
              else WDone st WriteFailed
          | Err e => WDone st (Refused e)
          | _ => WPanic
          end
      | _ => WPanic
      end
  end.

(** restore.rs 716-722, [add_chunk], called once for each flag, on the same
    chunk. *)
Fixpoint send_again (sha hv : bytes -> bytes) (st : rstate) (c : sent) (ws : list bool) : option (rstate * list answer) :=
  match ws with
  | [] => Some (st, [])
  | w :: ws' =>
      match add_chunk_io sha hv w st (fst c) (snd c) with
      | WDone st' a =>
          match send_again sha hv st' c ws' with Some (st2, l) => Some (st2, a :: l) | None => None end
      | WPanic => None
      end
  end.
(** The chunks in order, each as often as it has flags. *)
Fixpoint feed_io (sha hv : bytes -> bytes) (st : rstate) (cs : list (sent * list bool)) : option (rstate * list answer) :=
  match cs with
  | [] => Some (st, [])
  | (c, ws) :: cs' =>
      match send_again sha hv st c ws with
      | Some (st', l) =>
          match feed_io sha hv st' cs' with Some (st2, l') => Some (st2, l ++ l') | None => None end
      | None => None
      end
  end.
