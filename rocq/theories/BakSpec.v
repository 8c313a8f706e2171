(** What C87 is about: what a client that has taken a backup can rely on. *)
From Verif Require Import Base DurModel DurSpec BakModel.
Local Open Scope nat_scope.

(** the server that is started in a directory, if it starts; [log] is only a name for what it is
    expected to show *)
Definition started (d : disk) (log : list stmt) : option server :=
  match restart d with Some (d', m') => Some (mkserver d' m' [] None log) | None => None end.
(** what is assumed of the events of the server, for events of the server and the backup *)
Fixpoint balways (P : server -> event -> Prop) (y : system) (es : list bevent) : Prop :=
  match es with
  | [] => True
  | e :: es => match e with Srv e => P (fst y) e | _ => True end /\ match bstep y e with Some y' => balways P y' es | None => True end
  end.
(** nothing that takes files away: no removal of log files, no DROP TABLE, no restart *)
Definition calm (e : bevent) : Prop := match e with Srv (GcEnd _) | Srv (Begin (Drop _)) | Srv Restart => False | _ => True end.
