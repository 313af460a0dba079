(* One step of the extracted machine: same input lines as hw.c plus, last, the list of addresses to report. *)
open Spec
let z_of_bits bs = (* most significant first *)
  let rec go acc = function [] -> acc | b :: r -> go (match acc with None -> if b then Some XH else None | Some p -> Some (if b then XI p else XO p)) r in
  match go None bs with None -> Z0 | Some p -> Zpos p
let nib c = match c with '0'..'9' -> Char.code c - 48 | _ -> Char.code (Char.lowercase_ascii c) - 87
let z_of_hex s =
  let l = ref [] in
  String.iter (fun c -> let n = nib c in l := (n land 1 <> 0) :: (n land 2 <> 0) :: (n land 4 <> 0) :: (n land 8 <> 0) :: !l) s;
  z_of_bits (List.rev !l)
let hex_of_z z = match z with
  | Z0 -> "0" | Zneg _ -> "NEG"
  | Zpos p ->
    let rec bits = function XH -> [1] | XO p -> 0 :: bits p | XI p -> 1 :: bits p in
    let rec nibs = function [] -> [] | a :: b :: c :: d :: r -> (a + 2*b + 4*c + 8*d) :: nibs r
      | l -> nibs (l @ [0]) in
    let l = List.rev (nibs (bits p)) in
    String.concat "" (List.map (Printf.sprintf "%x") l)
let rec int_of_pos = function XH -> 1 | XO p -> 2 * int_of_pos p | XI p -> 1 + 2 * int_of_pos p
let rec plen = function XH -> 1 | XO p | XI p -> 1 + plen p
let int_of_z = function Z0 -> 0 | Zpos p -> if plen p > 60 then -1 else int_of_pos p | Zneg _ -> -1
let small = Array.init 256 (fun i -> z_of_hex (Printf.sprintf "%x" i))
let fb = function None -> "?" | Some true -> "1" | Some false -> "0"
let () =
  try while true do
    let l = String.split_on_char ' ' (String.trim (input_line stdin)) in
    match l with
    | pc :: code :: fl :: pa :: patch :: rest ->
      let arr = Array.of_list rest in
      let pci = int_of_string ("0x" ^ pc) and pai = int_of_string ("0x" ^ pa) in
      let byte s i = small.(int_of_string ("0x" ^ String.sub s (2*i) 2)) in
      let mem a = let a = int_of_z a in
        if a >= pci && a < pci + String.length code / 2 then byte code (a - pci)
        else if a >= pai && a < pai + String.length patch / 2 then byte patch (a - pai)
        else if a >= 0x20000000 && a < 0x20001000 then (let i = a - 0x20000000 in small.((i*167+(i lsr 4)*29+13) land 255))
        else if a >= 0x30000000 && a < 0x30002000 then small.(0xcc)
        else Z0 in
      let regs = Array.init 16 (fun i -> z_of_hex arr.(i)) and xm = Array.init 16 (fun i -> z_of_hex arr.(16+i)) in
      let fun_of a z = let i = int_of_z z in if i >= 0 && i < 16 then a.(i) else Z0 in
      let f i = Some (fl.[i] = '1') in
      let st = { regs = fun_of regs; xmms = fun_of xm; fl = { f_cf = f 0; f_pf = f 1; f_zf = f 2; f_sf = f 3; f_of = f 4 }; mm = mem } in
      (match cpu_step (z_of_hex pc) st with
       | None -> print_endline "N"
       | Some (pc', s) ->
         let g = s.fl in
         Printf.printf "%s %s%s%s%s%s" (hex_of_z pc') (fb g.f_cf) (fb g.f_pf) (fb g.f_zf) (fb g.f_sf) (fb g.f_of);
         for i = 0 to 15 do Printf.printf " %s" (hex_of_z (s.regs small.(i))) done;
         for i = 0 to 15 do Printf.printf " %s" (hex_of_z (s.xmms small.(i))) done;
         for i = 32 to Array.length arr - 1 do
           let a = z_of_hex arr.(i) in
           let b = int_of_z (s.mm a) in
           if b <> int_of_z (mem a) then Printf.printf " %s:%02x" arr.(i) b done;
         print_newline ())
    | _ -> ()
  done with End_of_file -> ()
