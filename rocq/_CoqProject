-Q theories Verif
theories/Bytes.v
theories/Utf8.v
theories/Proto.v
theories/ProtoFacts.v
theories/Crc8.v
theories/Value.v
theories/Codec.v
theories/Store.v
theories/StoreFacts.v
theories/Encrypt.v
theories/World.v
theories/Spec.v
theories/Hyps.v
theories/Refine.v
theories/WorldInv.v
theories/WorldStep.v
theories/Main.v
theories/Frames.v
theories/Reach.v
theories/Examples.v
theories/P_Map.v
theories/P_Size.v
theories/P_Store.v
theories/Slots.v
theories/Damaged.v
theories/Crash.v
theories/P_Kill.v
theories/P_Kill2.v
theories/P_Corrupt.v
theories/P_Enc.v
theories/P_Enc2.v
theories/P_Damaged.v
theories/P_Foreign.v
theories/P_Wrong.v
theories/P_Key.v
theories/P_Types.v
theories/P_Fail.v
theories/P_Space.v
theories/P_Alias.v
theories/Looper.v
theories/P_Loop.v
theories/Conc.v
theories/P_Conc.v
theories/P_ConcKill.v
theories/P_Live.v
theories/P_Wait.v
theories/Reg.v
theories/P_Reg.v
theories/P_Reg2.v
theories/P_Reg3.v
theories/Full.v
theories/P_Full.v
theories/P_Full2.v
theories/P_Full3.v
theories/P_Full4.v
theories/P_FullKill.v
theories/Logging.v
theories/P_Log.v
theories/Logged.v
theories/P_Logged.v
theories/Ffi.v
theories/P_Ffi.v
theories/P_Ffi2.v
theories/FfiConc.v
theories/P_FfiConc.v
theories/P_FfiConc2.v
theories/P_FfiConc3.v
theories/Gc.v
theories/P_Gc.v
theories/Bindings.v
theories/P_Bindings.v
theories/Procs.v
theories/P_Procs.v
theories/P_Procs2.v
theories/P_Procs3.v
theories/Page.v
theories/P_Page.v
theories/Lines.v
theories/P_Lines.v
theories/P_Lines2.v
theories/Power.v
theories/P_Power.v
theories/Abort.v
theories/P_Abort.v
theories/P_Apart.v
theories/P_Abort2.v
theories/P_Copy.v
theories/P_ConcFail.v
theories/P_Switch.v
theories/Beside.v
theories/P_Unlink.v
theories/P_Unlink2.v
theories/P_ReadOnly.v
theories/P_Release.v
theories/Echo.v
theories/P_Echo.v
theories/P_Pages.v
theories/P_Ffi3.v
theories/P_Abort3.v
theories/P_Pages2.v
