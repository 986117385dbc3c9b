(** TokenModel.v -- model of Token.hpp / Token.cpp over a buffer that the token may wrap around.
    The buffer is the list of its m_buffer_size bytes. Reading beyond it is UB. *)
From Verif Require Import Base.

(** Token.hpp 38-44: m_start_pos, m_end_pos, m_buffer with m_buffer_size, and the cached
    m_wrap_around_string. *)
Record rtoken := mkRTok { rt_start : N; rt_end : N; rt_buf : list N; rt_wrap : list N }.
Definition rt_size (t : rtoken) : N := N.of_nat (length (rt_buf t)).
(** [std::string{m_buffer + a, m_buffer + b}]. *)
Definition slice (buf : list N) (a b : N) : out (list N) :=
  if (a <=? b) && (b <=? N.of_nat (length buf)) then Ret (firstn (N.to_nat (b - a)) (skipn (N.to_nat a) buf)) else UB.

(** Token.cpp 8-17: to_string; the second component is the token afterwards (the cache may be filled). *)
Definition rt_to_string (t : rtoken) : out (list N * rtoken) :=
  if rt_start t <=? rt_end t then do s <- slice (rt_buf t) (rt_start t) (rt_end t); Ret (s, t)
  else match rt_wrap t with
       | [] =>
         do a <- slice (rt_buf t) (rt_start t) (rt_size t);
         do b <- slice (rt_buf t) 0 (rt_end t);
         Ret (a ++ b, mkRTok (rt_start t) (rt_end t) (rt_buf t) (a ++ b))
       | w => Ret (w, t)
       end.
(** Token.cpp 19-28: to_string_view computes the same way (the view points into the buffer or the cache). *)
Definition rt_to_string_view (t : rtoken) : out (list N * rtoken) :=
  if rt_start t <=? rt_end t then do s <- slice (rt_buf t) (rt_start t) (rt_start t + (rt_end t - rt_start t)); Ret (s, t)
  else match rt_wrap t with
       | [] =>
         do a <- slice (rt_buf t) (rt_start t) (rt_size t);
         do b <- slice (rt_buf t) 0 (rt_end t);
         Ret (a ++ b, mkRTok (rt_start t) (rt_end t) (rt_buf t) (a ++ b))
       | w => Ret (w, t)
       end.
Definition byte_at (buf : list N) (i : N) : out N := match nth_error buf (N.to_nat i) with Some b => Ret b | None => UB end.
(** Token.cpp 30-35; the index is a uint8_t. Positions are not wrapped modulo 2^32. *)
Definition rt_get_char (t : rtoken) (i : N) : out N :=
  if rt_start t + i <? rt_size t then byte_at (rt_buf t) (rt_start t + i)
  else byte_at (rt_buf t) (i - (rt_size t - rt_start t)).
(** Token.cpp 37-39. *)
Definition rt_get_delimiter (t : rtoken) : out (list N) := slice (rt_buf t) (rt_start t) (rt_start t + 1).
(** Token.cpp 41-46. *)
Definition rt_get_length (t : rtoken) : N :=
  if rt_start t <=? rt_end t then rt_end t - rt_start t else rt_size t - rt_start t + rt_end t.
