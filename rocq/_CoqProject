-Q theories Verif
theories/Base.v
theories/Core.v
theories/Spec.v
theories/Frame.v
theories/Fuel.v
theories/Demo.v
theories/Conn.v
theories/Keep.v
theories/Trace.v
theories/Inv.v
theories/Dead.v
theories/Rest.v
theories/Quiet.v
theories/Deliver.v
theories/Emission.v
theories/Raise.v
theories/Gone.v
theories/Ctl.v
theories/Block.v
theories/Hush.v
theories/Client.v
theories/Prog.v
theories/Does.v
theories/Top.v
theories/Shrink.v
theories/Arity.v
theories/Queue.v
theories/PyList.v
theories/EList.v
theories/SpecList.v
theories/Gather.v
theories/ListFacts.v
theories/PyDict.v
theories/EDict.v
theories/SpecDict.v
theories/PySet.v
theories/ESet.v
theories/SpecSet.v
theories/SetFacts.v
theories/PropsEmit.v
theories/PropsConn.v
theories/PropsSlot.v
theories/PropsBlock.v
theories/PropsQueue.v
theories/PropsList.v
theories/PropsDict.v
theories/Paused.v
theories/PropsSet.v
theories/Through.v
theories/PropsOrder.v
theories/ESelect.v
theories/SpecSelect.v
theories/SelFacts.v
theories/SelList.v
theories/Raised.v
theories/PropsSelect.v
theories/SpecGroup.v
theories/Relay.v
theories/PropsGroup.v
theories/Made.v
theories/Pickle.v
theories/PropsPickle.v
theories/Monitor.v
theories/Watch.v
theories/PropsMonitor.v
theories/Alike.v
theories/PropsFast.v
theories/Evented.v
theories/SpecEvented.v
theories/PropsEvented.v
theories/Uniform.v
theories/PropsUniform.v
theories/Rely.v
theories/EModel.v
theories/SpecModel.v
theories/ModelFacts.v
theories/ModelDelay.v
theories/PropsModel.v
theories/Throttle.v
theories/ThrottleFacts.v
theories/PropsThrottle.v
theories/Threads.v
theories/ThreadFacts.v
theories/ThreadWork.v
theories/ThreadSolo.v
theories/PropsThreads.v
theories/Descr.v
theories/DescrFacts.v
theories/PropsDescr.v
theories/Share.v
theories/PropsShare.v
theories/EChild.v
theories/PropsChild.v
theories/EProxy.v
theories/PropsProxy.v
theories/Ends.v
theories/PropsEnds.v
theories/PropsCheck.v
theories/ESetRead.v
theories/PropsSetRead.v
theories/GroupMap.v
theories/PropsGroupMap.v
theories/ModelClass.v
theories/PropsModelClass.v
theories/ModelTree.v
theories/PropsModelTree.v
theories/EListRead.v
theories/PropsRead.v
theories/ModelEq.v
theories/PropsModelEq.v
theories/Patch.v
theories/PropsPatch.v
theories/Drain.v
theories/PropsDrain.v
theories/Report.v
theories/PropsReport.v
theories/EqOps.v
theories/PropsEqOps.v
theories/Reuse.v
theories/PropsReuse.v
theories/Fields.v
theories/PropsFields.v
theories/PropsModelNames.v
theories/SelTold.v
theories/PropsSelTold.v
theories/PropsSelNext.v
theories/SelGood.v
theories/PropsSelGood.v
theories/Qt.v
theories/PropsQt.v
theories/QtSlot.v
theories/PropsQtSlot.v
theories/Files.v
theories/PropsFiles.v
theories/SpecSlice.v
theories/SliceFacts.v
theories/PropsSlice.v
theories/Guard.v
theories/SpecReentry.v
theories/PropsReentry.v
theories/SpecListUse.v
theories/PropsListUse.v
theories/Calm.v
theories/SpecSelUse.v
theories/SelCalm.v
theories/PropsSelUse.v
theories/SpecModelUse.v
theories/Heed.v
theories/ModelHeed.v
theories/PropsModelUse.v
theories/SpecSelListUse.v
theories/SelListCalm.v
theories/PropsSelListUse.v
theories/EMake.v
theories/SpecMake.v
theories/Alone.v
theories/MakeFacts.v
theories/PropsMake.v
theories/EnumConf.v
theories/SpecEnum.v
theories/EnumFacts.v
theories/PropsEnum.v
theories/Declare.v
theories/SpecDeclare.v
theories/PropsDeclare.v
theories/PropsFastGroup.v
theories/Decorator.v
theories/SpecDecorator.v
theories/PropsDecorator.v
theories/Wrapper.v
theories/PropsWrapper.v
theories/Bind.v
theories/PropsBind.v
theories/PropsSuppress.v
