(** Serialization of error codes: score/mw/com/impl/error_serializer.{h,cpp}. *)
From Verif Require Import Base.
Open Scope Z_scope.

(** The two error domains ErrorSerializer is instantiated for (error_serializer.cpp:62-63). *)
Inductive domain := DCom | DMethod.

(** kNumEnumElements: score/mw/com/impl/com_error.h:66, methods/method_error.h:41 *)
Definition num_elements (d : domain) : Z := match d with DCom => 34 | DMethod => 8 end.
(** kInvalid: com_error.h:32, method_error.h:32; the static_assert of error_serializer.cpp:26 *)
Definition k_invalid : Z := 0.

(** Outcome of a call: a violated precondition terminates the process. *)
Inductive res (A : Type) := Ret (a : A) | Abort.
Arguments Ret {A} a. Arguments Abort {A}.

(** score::Result<void> with an error code of the domain *)
Inductive result := Success | Failure (code : Z).

(** error_serializer.cpp:23-30 SerializeSuccess *)
Definition serialize_success : Z := 0.

(** error_serializer.cpp:32-42 SerializeError. The enumerations have underlying type
    score::result::ErrorCode (a signed 32-bit integer), the cast is the identity. *)
Definition serialize_error (d : domain) (code : Z) : res Z :=
  if (k_invalid <? code) && (code <? num_elements d) then Ret code else Abort.

(** error_serializer.cpp:44-60 Deserialize *)
Definition deserialize (d : domain) (ser : Z) : res result :=
  if (k_invalid <=? ser) && (ser <? num_elements d)
  then Ret (if negb (ser =? 0) then Failure ser else Success)
  else Abort.
