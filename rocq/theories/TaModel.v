(* Model of /repo/http/test.go and /repo/api/test.go: calls without a server, over the model of api.Handler. *)
From Coq Require Import Bool Ascii String Arith NArith ZArith List.
From Verif Require Import Prelude Utf8Model DecModel DurModel EncModel JsonModel MarModel ConfModel ApiModel.
Import ListNotations.

Section Test.
  (* conversions of floats, as in MarModel *)
  Context (f2i f2u : floatv -> Z).
  (* http/test.go:10-51 TestAPI: client and server are made from the object that is sent, the nodes are handed over as they
     are.  uid: what Marshal makes of the parameter (line 26); None: it fails.  The errors are not told apart.  What the
     object's pointers, maps and slices refer to is not modelled (see C119). *)
  Definition TestAPI (fs : list afld) (uid : option node) (do : list val -> option (list val)) (obj : list val) : rres :=
    match NewHandler fs (Some obj) with
    | None => RErr
    | Some cli =>
        match NewHandler fs (Some obj) with
        | None => RErr
        | Some ser =>
            match ClientSend cli obj with
            | Panic => RPanic
            | Ok d =>
                match uid with
                | None => RErr
                | Some u =>
                    match Recv f2i f2u ser d (Some u) with
                    | ROk op =>
                        match do op with
                        | None => RErr
                        | Some op' => match Send ser op' with Panic => RPanic | Ok d' => ClientRecv f2i f2u cli d' obj end
                        end
                    | x => x
                    end
                end
            end
        end
    end.
  (* api/test.go:10-40 Test: there is no identity; an error fails the test (RErr) *)
  Definition Test (fs : list afld) (do : list val -> option (list val)) (obj : list val) : rres :=
    match NewHandler fs (Some obj) with
    | None => RErr
    | Some h =>
        match ClientSend h obj with
        | Panic => RPanic
        | Ok d =>
            match Recv f2i f2u h d None with
            | ROk req =>
                match do req with
                | None => RErr
                | Some req' => match Send h req' with Panic => RPanic | Ok d' => ClientRecv f2i f2u h d' obj end
                end
            | x => x
            end
        end
    end.
End Test.
