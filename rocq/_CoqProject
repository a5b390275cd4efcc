-Q theories Verif
theories/M_Trie.v
theories/S_Map.v
theories/P_Trie.v
theories/T_Trie.v
theories/M_String.v
theories/S_IntText.v
theories/P_String.v
theories/T_String.v
theories/M_Base.v
theories/M_Sort.v
theories/S_Sort.v
theories/P_Sort.v
theories/T_Sort.v
theories/M_Array.v
theories/S_Seq.v
theories/P_Array.v
theories/T_Array.v
theories/M_Core.v
theories/P_Core.v
theories/T_Core.v
theories/M_Heap.v
theories/S_Heap.v
theories/P_Heap.v
theories/X_Heap.v
theories/T_Heap.v
theories/M_Instr.v
theories/M_VM.v
theories/S_Cyclic.v
theories/P_Cyclic.v
theories/P_VM.v
theories/S_VM.v
theories/P_Exec.v
theories/S_Num.v
theories/P_Float.v
theories/P_Num.v
theories/X_Num.v
theories/T_Num.v
theories/P_Valid.v
theories/S_Globals.v
theories/P_Globals.v
theories/X_Machine.v
theories/T_Machine.v
theories/S_Types.v
theories/P_Types.v
theories/P_Safe.v
theories/P_Safe2.v
theories/P_Safe3.v
theories/P_Safe4.v
theories/P_Safe5.v
theories/P_Safe6.v
theories/P_Safe7.v
theories/X_Types.v
theories/T_Types.v
theories/S_Data.v
theories/P_Data.v
theories/P_Data2.v
theories/P_Data3.v
theories/X_Data.v
theories/T_Data.v
theories/S_Call.v
theories/P_Call.v
theories/P_Call2.v
theories/X_Call.v
theories/T_Call.v
theories/S_Closure.v
theories/P_Closure.v
theories/P_Closure2.v
theories/P_Closure3.v
theories/X_Closure.v
theories/T_Closure.v
theories/M_Asm.v
theories/S_Asm.v
theories/P_Asm.v
theories/P_Jumps.v
theories/P_Asm2.v
theories/P_Asm3.v
theories/P_Asm4.v
theories/P_Peep.v
theories/X_Asm.v
theories/T_Asm.v
theories/M_Parser.v
theories/S_Reader.v
theories/P_Reader.v
theories/P_Reader2.v
theories/P_Reader3.v
theories/P_Reader4.v
theories/P_Reader5.v
theories/P_Reader6.v
theories/X_Reader.v
theories/T_Reader.v
theories/M_Symbol.v
theories/S_Symbol.v
theories/P_Symbol.v
theories/T_Symbol.v
theories/M_Scope.v
theories/S_Scope.v
theories/P_Scope.v
theories/T_Scope.v
theories/M_Compile.v
theories/S_Compile.v
theories/P_Compile.v
theories/P_Compile2.v
theories/P_Compile3.v
theories/P_Compile4.v
theories/P_Compile5.v
theories/P_Abs.v
theories/S_Stack.v
theories/P_Height.v
theories/P_Sim.v
theories/P_Exact.v
theories/P_Program.v
theories/S_Run.v
theories/P_Refine.v
theories/P_Bytes.v
theories/P_Correct.v
theories/P_Correct2.v
theories/S_Program.v
theories/P_Effect.v
theories/P_Heights.v
theories/S_Order.v
theories/P_Order.v
theories/P_Session.v
theories/P_Final.v
theories/X_Compile.v
theories/T_Compile.v
theories/M_Host.v
theories/S_Host.v
theories/P_Host.v
theories/P_Host2.v
theories/P_Host3.v
theories/X_Host.v
theories/T_Host.v
theories/M_Memory.v
theories/S_Memory.v
theories/P_Memory.v
theories/P_Memory2.v
theories/P_Memory3.v
theories/P_Memory4.v
theories/P_Memory5.v
theories/P_Memory6.v
theories/P_Memory7.v
theories/X_Memory.v
theories/T_Memory.v
theories/M_Convert.v
theories/S_Convert.v
theories/P_Convert.v
theories/P_Convert2.v
theories/P_Convert3.v
theories/P_Convert4.v
theories/P_Convert5.v
theories/P_Convert6.v
theories/X_Convert.v
theories/T_Convert.v
theories/S_Decimal.v
theories/P_Decimal.v
theories/P_Decimal2.v
theories/P_Decimal3.v
theories/P_Decimal4.v
theories/X_Decimal.v
theories/T_Decimal.v
theories/S_Frame.v
theories/P_Frame.v
theories/P_Frame2.v
theories/P_Frame3.v
theories/P_Frame4.v
theories/P_Frame5.v
theories/P_Frame6.v
theories/P_Frame7.v
theories/P_Frame8.v
theories/P_Frame9.v
theories/P_Frame10.v
theories/P_Frame11.v
theories/X_Frame.v
theories/T_Frame.v
theories/M_Infer.v
theories/S_Infer.v
theories/P_Infer.v
theories/P_Infer2.v
theories/P_Infer3.v
theories/P_Infer4.v
theories/P_Infer5.v
theories/P_Infer6.v
theories/P_Infer7.v
theories/P_Infer8.v
theories/X_Infer.v
theories/T_Infer.v
theories/S_Dynamic.v
theories/P_Dyn1.v
theories/P_Dyn2.v
theories/P_Dyn3.v
theories/P_Dyn4.v
theories/P_Dyn5.v
theories/P_Dyn6.v
theories/X_Dynamic.v
theories/T_Dynamic.v
theories/M_Load.v
theories/S_Load.v
theories/P_Load.v
theories/S_Accept.v
theories/P_Accept.v
theories/P_Accept2.v
theories/P_Accept3.v
theories/P_Accept4.v
theories/X_Load.v
theories/X_Accept.v
theories/T_Load.v
theories/T_Accept.v
theories/M_Disasm.v
theories/S_Disasm.v
theories/P_Disasm.v
theories/X_Disasm.v
theories/T_Disasm.v
theories/M_Reenter.v
theories/S_Reenter.v
theories/P_Reenter.v
theories/P_Reenter2.v
theories/X_Reenter.v
theories/T_Reenter.v
theories/M_Macro.v
theories/P_Macro.v
theories/S_Macro.v
theories/P_Comptime.v
theories/P_Comptime2.v
theories/P_Comptime3.v
theories/P_Macro2.v
theories/X_Macro.v
theories/T_Macro.v
theories/P_Fun1.v
theories/S_Fun.v
theories/P_Fun2.v
theories/P_Fun3.v
theories/P_Fun4.v
theories/X_Fun.v
theories/T_Fun.v
theories/P_Macro3.v
theories/P_Fun5.v
theories/S_Look.v
theories/P_Look.v
theories/X_Look.v
theories/T_Look.v
theories/P_Fun6.v
theories/X_Fun2.v
theories/S_Callback.v
theories/P_Callback.v
theories/X_Callback.v
theories/T_Callback.v
theories/M_Link.v
theories/S_Link.v
theories/P_Link.v
theories/X_Link.v
theories/T_Link.v
theories/M_Print.v
theories/S_Print.v
theories/P_Print.v
theories/P_Print2.v
theories/P_Print3.v
theories/P_Print4.v
theories/X_Print.v
theories/T_Print.v
theories/M_Log.v
theories/S_Log.v
theories/P_Log.v
theories/X_Log.v
theories/T_Log.v
theories/M_Init.v
theories/S_Init.v
theories/P_Init.v
theories/P_Init2.v
theories/X_Init.v
theories/T_Init.v
