(** What the event source property talks about: functions of the observed trace. *)
From Verif Require Import Base SinkModel.

(** The event takes the sink x out of the source. *)
Definition drops (par : Z -> Z) (x : Z) (e : sev) : bool :=
  match e with VUnsub y => x =? y | VRemove t => par x =? t | _ => false end.

(** x is subscribed after a trace. *)
Definition sub_ev (par : Z -> Z) (x : Z) (b : bool) (e : sev) : bool :=
  match e with VSub y => b || (x =? y) | _ => b && negb (drops par x e) end.
Definition subscribed (par : Z -> Z) (tr : list sev) (x : Z) : bool := fold_left (sub_ev par x) tr false.

(** The sinks notified by the call k in a trace. *)
Fixpoint notified (k : nat) (tr : list sev) : list Z :=
  match tr with
  | [] => []
  | VNotify k' x _ :: r => if (k' =? k)%nat then x :: notified k r else notified k r
  | _ :: r => notified k r
  end.

(** x is subscribed, and not dropped during the events. *)
Definition never_dropped (par : Z -> Z) (x : Z) (tr : list sev) : Prop := forall e, In e tr -> drops par x e = false.

Definition strace kind typ par os : list sev := snd (srun kind typ par src_init os).
