(** Types in the log of the parenthesis inferrer (parenthesis-inferrer.c). *)
From Coq Require Import String ZArith List Bool.
From Verif Require Import M_Base M_String M_Parser M_Disasm M_Print M_Infer.
Import ListNotations.
Open Scope Z_scope.
Open Scope list_scope.

(** parenthesis-inferrer.c 653-696 inferrerTypeSignature_serialize, with inferrerState_log (609-613):
    what is appended to the log.  Simplified: the log has room. *)
Fixpoint serialize (t : sig) : res (list Z) :=
  match t with
  | SigL => Ok (dl_str "L")
  | SigI => Ok (dl_str "I")
  | SigExpression positional rest =>
    ts <- (fix each (l : list sig) (first : bool) : res (list Z) :=
             match l with
             | [] => Ok []
             | x :: r => a <- serialize x ;; b <- each r false ;; Ok ((if first then [] else dl_str " ") ++ a ++ b)
             end) positional true ;;
    rs <- match rest with
          | None => Ok []
          | Some (n, r) =>
            k <- print_ptrdiff n ;;
            b <- serialize r ;;
            Ok ((if (0 <? length positional)%nat then dl_str " " else []) ++ dl_str "&rest " ++ k ++ dl_str " " ++ b)
          end ;;
    Ok (dl_str "(" ++ ts ++ rs ++ dl_str ")")
  end.
