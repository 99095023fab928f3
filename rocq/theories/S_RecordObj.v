(** The ideal record reader, over the records of a file and the way its reading ends. *)
From Verif Require Import Base M_RecordObj.

(** What the calls answer, up to the first that fails. Reading past the last record fails. *)
Fixpoint ideal (rs : list bytes) (clean : bool) (ops : list rdop) : list rdres :=
  match ops with
  | [] => []
  | RdHasMore :: ops' => match rs with [] => if clean then AMore false :: ideal rs clean ops' else AMore true :: ideal rs clean ops' | _ => AMore true :: ideal rs clean ops' end
  | RdRead :: ops' => match rs with [] => [] | r :: rs' => ARecord r :: ideal rs' clean ops' end
  end.
(** The answers before the first failure. *)
Fixpoint before_failure {A} (l : list (outcome A)) : list A :=
  match l with Ok a :: l' => a :: before_failure l' | _ => [] end.
